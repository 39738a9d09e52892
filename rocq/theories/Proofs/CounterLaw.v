(** The hit counter over many calls. *)
From Coq Require Import ZArith Bool Arith List Lia.
From Verif Require Import Model.Num Model.Base Model.Matching Model.Filter Model.Tracker
  Spec.MatchingSpec Spec.IdentitySpec Proofs.NumLaws Proofs.MatchingProofs Proofs.TrackerFrame Proofs.Identity
  Proofs.Effect Proofs.CallEffect Proofs.CallProps Proofs.CallTheorems Proofs.CallTheorems2 Proofs.CallTheorems3 Proofs.CallTheorems4
  Spec.CallSpec Spec.CounterSpec.
Import ListNotations.
Local Open Scope nat_scope.

Section Counter.
Context {N : Num} {FO : filter_ops N} (laws : NumLaws N).
Notation st := (st FO).
Notation frame := (CallSpec.frame FO).

Lemma tracked_back c dets p ct (s s' : st) out i : rnd_ok (tc_rnd c) -> good c s ->
  update c (Some dets) p ct s = (s', Ret out) -> tracked s' i -> tracked s i \/ s_icount s < i <= s_icount s'.
Proof.
  intros Hr Hg E Hi. assert (Hg' := good_update c _ (Some dets) p ct Hg). rewrite E in Hg'. cbn in Hg'.
  assert (Hv := valid_tracked _ _ (proj1 Hg') Hi). unfold valid in Hv.
  destruct (le_lt_dec i (s_icount s)) as [L|L]; [left|right; lia].
  apply (kept_tracked c). apply (tracked_pre laws _ _ _ _ _ _ _ _ Hr Hg E); [unfold valid; lia|exact Hi].
Qed.

Lemma fate_conf c dets p ct (s s' : st) i : fate c dets p ct s s' i -> o_conf (s_store s' i) = o_conf (s_store s i).
Proof.
  intros F. destruct F as [A B D|A B D|r d om A B D F G0 G1|j om A B R0 I0 D F F' L G0 G1].
  - rewrite D. reflexivity.
  - rewrite (um_conf _ _ D), st_conf. reflexivity.
  - destruct F as (o1 & F1 & F2). rewrite F2. cbn. rewrite (hr_conf _ _ _ _ _ F1), (um_conf _ _ D), st_conf. reflexivity.
  - rewrite (mr_conf _ _ _ G1), (um_conf _ _ G0), st_conf. reflexivity.
Qed.

(** The initial periods of the objects are periods of calls. *)
Lemma periods_of_calls (P : Z -> Prop) c (s : st) fs : rnd_ok (tc_rnd c) -> good c s -> video c s fs ->
  (forall i, tracked s i -> P (oc_initial_period (o_conf (s_store s i)))) -> (forall f, In f fs -> P (f_period f)) ->
  forall f, In f fs -> forall i, tracked (f_post f) i -> P (oc_initial_period (o_conf (s_store (f_post f) i))).
Proof.
  intros Hr. revert s. induction fs as [|f0 fs IH]; intros s Hg V Hs Hp f Hf i Hi; [destruct Hf|].
  destruct (video_cons_inv laws _ _ _ _ V Hr Hg) as (Gp & Gq & E & _ & S1 & S2 & S3 & V').
  assert (H0 : forall i, tracked (f_post f0) i -> P (oc_initial_period (o_conf (s_store (f_post f0) i)))).
  { clear i Hi. intros i Hi. destruct (tracked_back _ _ _ _ _ _ _ _ Hr Gp E Hi) as [K|K].
    - rewrite (fate_conf _ _ _ _ _ _ _ (update_fate laws _ _ _ _ _ _ _ i Hr Gp E K)), S1. apply Hs. unfold tracked in *. rewrite <- S2. exact K.
    - destruct (new_object laws _ _ _ _ _ _ _ _ Hr Gp E K) as (_ & r & _ & R). rewrite (nr_conf _ _ _ _ _ _ _ R). cbn. apply Hp. left; reflexivity. }
  destruct Hf as [<-|Hf]; [apply H0, Hi|]. apply (IH (f_post f0) Gq V' H0 (fun f Hf => Hp f (or_intror Hf)) f Hf i Hi).
Qed.

Theorem small_periods c (s : st) fs : rnd_ok (tc_rnd c) -> tracker_state c s -> video c s fs ->
  let small q := (q <= tc_hit_counter_max c /\ (tc_reid_distance c <> None -> 2 * q <= tc_hit_counter_max c))%Z in
  (forall i, tracked s i -> small (oc_initial_period (o_conf (s_store s i)))) -> (forall f, In f fs -> small (f_period f)) ->
  forall f, In f fs -> forall i, tracked (f_post f) i -> (hit_counter (f_post f) i <= tc_hit_counter_max c)%Z.
Proof.
  intros Hr Ht V small Hs Hp f Hf i Hi. assert (Hg := tracker_state_good _ _ Ht).
  destruct (periods_of_calls small c s fs Hr Hg V Hs Hp f Hf i Hi) as [A B].
  destruct (video_state laws _ _ _ Hr Ht V f Hf) as (_ & T & _).
  assert (K : known (f_post f) i). { apply valid_tracked in Hi; [exact Hi|]. apply (proj1 (tracker_state_good _ _ T)). }
  destruct (hit_counter_bounded c _ i T K) as [H1 H2].
  destruct (tc_reid_distance c) as [rd|] eqn:Er; [specialize (B ltac:(discriminate)); lia|specialize (H2 eq_refl); lia].
Qed.

Theorem counter_law c (s : st) fs i : rnd_ok (tc_rnd c) -> tracker_state c s -> tc_reid_distance c = None -> video c s fs ->
  tracked s i -> (forall f, In f fs -> fresh f i) ->
  forall m g, nth_error fs m = Some g -> tracked (f_post g) i ->
  hit_counter (f_post g) i = counter_after (tc_hit_counter_max c) i (hit_counter s i) (firstn (S m) fs).
Proof.
  intros Hr Ht Hre. revert s Ht. induction fs as [|f0 fs IH]; intros s Ht V Hi Hf m g Hm Hg; [destruct m; discriminate|].
  assert (Gs := tracker_state_good _ _ Ht).
  destruct (video_cons_inv laws _ _ _ _ V Hr Gs) as (Gp & Gq & E & _ & S1 & S2 & S3 & V').
  destruct (video_state laws _ _ _ Hr Ht V f0 (or_introl eq_refl)) as (Tp & Tq & _).
  assert (Hip : tracked (f_pre f0) i) by (unfold tracked; rewrite S2; exact Hi).
  assert (Hiq : tracked (f_post f0) i).
  { destruct (in_dec Nat.eq_dec i (s_tracked (f_post f0))) as [K|K]; [exact K|exfalso].
    assert (Hv := valid_tracked _ _ (proj1 Gp) Hip). assert (L := update_icount _ _ _ _ _ _ _ Gp E). unfold valid in Hv.
    destruct m as [|m]; cbn in Hm; [injection Hm as <-; exact (K Hg)|].
    apply (gone_stays laws c (f_post f0) fs i Hr Gq V' ltac:(unfold valid; lia) K m g Hm Hg). }
  destruct (hit_counter_law laws c _ _ _ _ _ _ i Hr Tp E Hip Hiq) as (_ & _ & A & B).
  specialize (B Hre (Hf f0 (or_introl eq_refl))).
  assert (Es : hit_counter (f_pre f0) i = hit_counter s i) by (unfold hit_counter; rewrite S1; reflexivity).
  rewrite Es in A, B.
  destruct m as [|m]; cbn in Hm.
  - injection Hm as <-. cbn. destruct (in_dec _ _ _) as [K|K]; auto.
  - rewrite (IH (f_post f0) Tq V' Hiq (fun f Hx => Hf f (or_intror Hx)) m g Hm Hg). cbn [firstn]. unfold counter_after at 2. cbn [fold_left].
    unfold counter_after. f_equal. destruct (in_dec _ _ _) as [K|K]; auto.
Qed.

Lemma counter_le cap i h (fs : list frame) : (h <= cap)%Z -> (counter_after cap i h fs <= cap)%Z.
Proof.
  revert h. induction fs as [|f fs IH]; intros h Hh; [exact Hh|]. cbn. apply IH. destruct (in_dec _ _ _); lia.
Qed.

Theorem capped_after_match c (s : st) fs i : rnd_ok (tc_rnd c) -> tracker_state c s -> tc_reid_distance c = None -> video c s fs ->
  tracked s i -> (forall f, In f fs -> fresh f i) ->
  forall k f m g, nth_error fs k = Some f -> seen f i -> k <= m -> nth_error fs m = Some g -> tracked (f_post g) i ->
  (hit_counter (f_post g) i <= tc_hit_counter_max c)%Z.
Proof.
  intros Hr Ht Hre V Hi Hf k f m g Hk Hs Hkm Hm Hg. rewrite (counter_law c s fs i Hr Ht Hre V Hi Hf m g Hm Hg).
  generalize (hit_counter s i). clear - Hk Hs Hkm. revert k m Hk Hkm.
  induction fs as [|f0 fs IH]; intros k m Hk Hkm h; [destruct k; discriminate|].
  cbn [firstn]. unfold counter_after. cbn [fold_left].
  destruct k as [|k]; cbn in Hk.
  - injection Hk as ->. destruct (in_dec _ _ _) as [K|K]; [|exfalso; exact (K Hs)]. apply counter_le. lia.
  - destruct m as [|m]; [lia|]. apply (IH k m Hk). lia.
Qed.

Theorem created_counter c dets p ct (s s' : st) out i : rnd_ok (tc_rnd c) -> tracker_state c s ->
  update c (Some dets) p ct s = (s', Ret out) -> known s' i -> ~ known s i -> hit_counter s' i = p.
Proof.
  intros Hr Ht E K Kn. apply tracker_state_good in Ht. unfold known in *.
  destruct (new_object laws _ _ _ _ _ _ _ i Hr Ht E ltac:(lia)) as (_ & r & _ & R). apply (nr_hit _ _ _ _ _ _ _ R).
Qed.
End Counter.

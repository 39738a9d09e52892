(** A tracker holds at most as many objects as it was given detections in its latest calls. *)
From Coq Require Import ZArith Bool Arith String List Lia Permutation Sorting.Sorted.
From Verif Require Import Model.Num Model.Base Model.Matching Model.Filter Model.Tracker
  Spec.MatchingSpec Spec.IdentitySpec Spec.CallSpec Spec.MemorySpec Proofs.NumLaws Proofs.MatchingProofs Proofs.TrackerFrame Proofs.Identity
  Proofs.Effect Proofs.CallEffect Proofs.CallProps Proofs.CallTheorems Proofs.CallTheorems2.
Import ListNotations.

Section Memory.
Context {N : Num} {FO : filter_ops N} (laws : NumLaws N).
Notation st := (st FO).
Notation tobj := (tobj FO).
Notation frame := (CallSpec.frame FO).

(** Every object of a call was missed, or stands for one of the detections of the call. *)
Lemma call_causes c dets p ct (s s' : st) out : rnd_ok (tc_rnd c) -> good c s ->
  update c (Some dets) p ct s = (s', Ret out) ->
  exists causes, List.length causes = List.length dets /\
    forall i, tracked s' i -> In i causes \/
      (In i (kept c s) /\ upto_min (obj_update_ct ct (tracker_step (s_store s i))) (s_store s' i)).
Proof.
  intros Hr [T C] E.
  destruct (update_summary laws _ _ _ _ _ _ _ Hr T E) as (H1 & H2 & G & news & U & _). cbn [dets_of] in U.
  set (stands := fun j => match find (fun g => Nat.eqb (h_det g) j) G with Some g => h_obj g | None => j end).
  exists (map h_obj H1 ++ map stands (map h_obj H2) ++ seq (S (s_icount s)) (List.length news)). split.
  - rewrite (Permutation_length (su_perm _ _ _ _ _ _ _ _ _ _ U)), !app_length, !map_length, seq_length. reflexivity.
  - intros i Hi. unfold tracked in Hi. rewrite (su_tracked _ _ _ _ _ _ _ _ _ _ U), in_app_iff, in_remove_all in Hi.
    destruct Hi as [[K NG]|Hn]; [|left; rewrite !in_app_iff; auto].
    destruct (in_dec Nat.eq_dec i (map h_obj H1)) as [I1|I1]; [left; rewrite in_app_iff; auto|].
    destruct (in_dec Nat.eq_dec i (map h_obj H2)) as [I2|I2].
    { left. rewrite !in_app_iff. right; left. apply in_map_iff. exists i. split; [|exact I2]. unfold stands.
      destruct (find _ G) as [g|] eqn:Ef; [|reflexivity]. apply find_some in Ef as [Ig Eg]. apply Nat.eqb_eq in Eg.
      exfalso. apply NG. apply in_map_iff. exists g. auto. }
    destruct (in_dec Nat.eq_dec i (map h_obj G)) as [I3|I3].
    { left. rewrite !in_app_iff. right; left. destruct (in_hits _ _ I3) as (j & d & Hin).
      apply in_map_iff. exists j. split; [|apply (su_cand _ _ _ _ _ _ _ _ _ _ U); eapply hits_in; eauto].
      unfold stands. destruct (find _ G) as [g|] eqn:Ef.
      - apply find_some in Ef as [Ig Eg]. apply Nat.eqb_eq in Eg.
        pose proof (su_nodup_cand _ _ _ _ _ _ _ _ _ _ U) as Nd.
        assert (Hg : g = (i, j, d)); [|rewrite Hg; reflexivity].
        clear - Nd Ig Eg Hin. induction G as [|x G IH]; [contradiction|]. cbn in Nd. inversion Nd as [|? ? X Y]; subst.
        destruct Ig as [->|Ig], Hin as [->|Hin]; auto.
        + exfalso. apply X. apply in_map_iff. exists (i, h_det g, d). auto.
        + exfalso. apply X. apply in_map_iff. exists g. auto.
      - exfalso. apply (find_none _ _ Ef) in Hin. cbn in Hin. rewrite Nat.eqb_refl in Hin. discriminate. }
    right. split; [exact K|]. apply (su_missed _ _ _ _ _ _ _ _ _ _ U); auto. rewrite !in_app_iff. tauto.
Qed.

(** Counters stay below the limits. *)
Definition within (c : tconf FO) (P : Z) (o : tobj) : Prop :=
  (oc_initial_period (o_conf o) <= P)%Z /\ (o_hit o <= Z.of_nat (top_counter c P))%Z /\
  (forall r x, tc_reid_max c = Some r -> o_reid o = Some x -> (x <= r)%Z).

Lemma within_step c P dets p ct (s s' : st) out : rnd_ok (tc_rnd c) -> good c s -> (p <= P)%Z ->
  update c (Some dets) p ct s = (s', Ret out) ->
  (forall i, valid s i -> within c P (s_store s i)) -> forall i, valid s' i -> within c P (s_store s' i).
Proof.
  intros Hr Hg Hp E H i Hv. destruct (le_gt_dec i (s_icount s)) as [Ho|Hn].
  2:{ destruct (new_object laws _ _ _ _ _ _ _ i Hr Hg E) as (_ & r & _ & NR); [unfold valid in Hv; lia|].
      split; [rewrite (nr_conf _ _ _ _ _ _ _ NR); exact Hp|]. split.
      - rewrite (nr_hit _ _ _ _ _ _ _ NR). unfold top_counter. destruct (tc_reid_distance c); lia.
      - intros r0 x _ X. rewrite (nr_reid _ _ _ _ _ _ _ NR) in X. discriminate. }
  assert (Hv0 : valid s i) by (unfold valid in *; lia). pose proof (H i Hv0) as (W1 & W2 & W3).
  pose proof (proj2 Hg i Hv0) as CO.
  assert (K : forall o, upto_min (obj_update_ct ct (tracker_step (s_store s i))) o ->
    oc_initial_period (o_conf o) = oc_initial_period (o_conf (s_store s i)) /\ o_hit o = (o_hit (s_store s i) - 1)%Z /\
    (forall r x, tc_reid_max c = Some r -> o_reid o = Some x -> (x <= r)%Z)).
  { intros o D. rewrite (um_conf _ _ D), st_conf, (um_hit _ _ D), st_hit. split; [reflexivity|]. split; [reflexivity|].
    intros r x Er Ex. rewrite (um_reid _ _ D), st_reid in Ex. destruct (o_reid (s_store s i)) as [y|] eqn:Ey.
    - injection Ex as <-. specialize (W3 r y Er eq_refl). lia.
    - destruct (_ <=? 0)%Z; [|discriminate]. rewrite (co_reid _ _ CO), Er in Ex. injection Ex as <-. lia. }
  assert (D0 : tracked s i \/ ~ tracked s i) by (unfold tracked; destruct (in_dec Nat.eq_dec i (s_tracked s)); auto).
  destruct D0 as [Ht|Ht].
  2:{ destruct (update_summary laws _ _ _ _ _ _ _ Hr (proj1 Hg) E) as (H1 & H2 & G & news & U & _).
      rewrite (su_gone _ _ _ _ _ _ _ _ _ _ U); [exact (conj W1 (conj W2 W3))|exact Hv0|]. intros X. apply Ht. apply kept_tracked in X. exact X. }
  pose proof (update_fate laws _ _ _ _ _ _ _ i Hr Hg E Ht) as F. cbn [dets_of] in F.
  destruct F as [A B D|A B D|r d om A B D F G0 G1|j om A B R0 I0 D F F' L G0 G1].
  - rewrite D. exact (conj W1 (conj W2 W3)).
  - destruct (K _ D) as (K1 & K2 & K3). unfold within. rewrite K1, K2. split; [exact W1|]. split; [lia|exact K3].
  - destruct (K _ D) as (K1 & K2 & K3). destruct F as (o1 & F1 & F2). rewrite F2. unfold within. cbn.
    rewrite (hr_conf _ _ _ _ _ F1), (hr_reid _ _ _ _ _ F1), K1. split; [exact W1|]. split; [|exact K3].
    rewrite (hr_hit _ _ _ _ _ F1), (um_conf _ _ D), st_conf, (co_hcm _ _ CO). unfold top_counter. destruct (tc_reid_distance c); lia.
  - destruct (K _ G0) as (K1 & K2 & K3). unfold within. rewrite (mr_conf _ _ _ G1), K1. split; [exact W1|]. split.
    + rewrite (mr_hit _ _ _ G1), K1. unfold top_counter. destruct (tc_reid_distance c); [|congruence]. lia.
    + intros r0 x _ X. rewrite (mr_reid _ _ _ G1) in X. discriminate.
Qed.

(** For how many more calls the object is kept if it is not matched. *)
Definition life (c : tconf FO) (o : tobj) : Z :=
  match tc_reid_max c with
  | None => Z.max (o_hit o + 1) 0
  | Some r => match o_reid o with Some x => Z.max (x + 1) 0 | None => Z.max (o_hit o) 0 + Z.max (r + 1) 0 + 1 end
  end%Z.

Lemma life_top c P (o : tobj) : within c P o -> (life c o + 1 <= Z.of_nat (held_calls c P))%Z.
Proof.
  intros (W1 & W2 & W3). unfold life, held_calls. destruct (tc_reid_max c) as [r|]; [|lia].
  destruct (o_reid o) as [x|]; [specialize (W3 r x eq_refl eq_refl)|]; lia.
Qed.
Lemma life_nonneg c (o : tobj) : (0 <= life c o)%Z.
Proof. unfold life. destruct (tc_reid_max c); [destruct (o_reid o)|]; lia. Qed.

Lemma life_missed c ct (s : st) i o : conf_ok c (s_store s i) -> In i (kept c s) ->
  upto_min (obj_update_ct ct (tracker_step (s_store s i))) o -> (life c o + 1 <= life c (s_store s i))%Z.
Proof.
  intros CO Hk D. apply kept_iff in Hk as [_ Hk]. unfold life, hit_counter in *.
  rewrite (um_hit _ _ D), (um_reid _ _ D), st_hit, st_reid, (co_reid _ _ CO).
  destruct (tc_reid_max c) as [r|]; [|lia]. destruct (o_reid (s_store s i)) as [x|]; [lia|].
  destruct (Z.leb_spec (o_hit (s_store s i)) 0); lia.
Qed.

(** Where each object of the last call comes from. *)
Lemma trail c P (s : st) fs : rnd_ok (tc_rnd c) -> good c s -> (forall i, valid s i -> within c P (s_store s i)) ->
  video c s fs -> (forall f, In f fs -> (f_period f <= P)%Z) ->
  exists cs, Forall2 (fun f l => List.length l = List.length (f_dets f)) fs cs /\
    forall n f i, nth_error fs n = Some f -> tracked (f_post f) i ->
    (exists m l, m <= n /\ nth_error cs m = Some l /\ In i l /\
       (hit_counter (f_post f) i + Z.of_nat (n - m) <= Z.of_nat (top_counter c P) /\
        life c (s_store (f_post f) i) + 1 + Z.of_nat (n - m) <= Z.of_nat (held_calls c P))%Z) \/
    (tracked s i /\ (hit_counter (f_post f) i + Z.of_nat (S n) <= hit_counter s i /\
       life c (s_store (f_post f) i) + Z.of_nat (S n) <= life c (s_store s i))%Z).
Proof.
  intros Hr. revert s. induction fs as [|f0 fs IH]; intros s Hg W V HP.
  { exists []. split; [constructor|]. intros [|n] f i X; discriminate. }
  destruct (video_cons_inv laws _ _ _ _ V Hr Hg) as (Gp & Gq & E & _ & S1 & S2 & S3 & V').
  assert (W1 : forall i, valid (f_pre f0) i -> within c P (s_store (f_pre f0) i)).
  { intros i Hi. rewrite S1. apply W. unfold valid in *. rewrite <- S3. exact Hi. }
  pose proof (within_step c P _ _ _ _ _ _ Hr Gp (HP f0 (or_introl eq_refl)) E W1) as W2.
  destruct (IH _ Gq W2 V' (fun f Hf => HP f (or_intror Hf))) as (cs & L & Hcs).
  destruct (call_causes _ _ _ _ _ _ _ Hr Gp E) as (l0 & L0 & Hl0).
  exists (l0 :: cs). split; [constructor; auto|].
  assert (Step : forall i, tracked (f_post f0) i ->
    (In i l0 /\ (hit_counter (f_post f0) i <= Z.of_nat (top_counter c P) /\ life c (s_store (f_post f0) i) + 1 <= Z.of_nat (held_calls c P))%Z) \/
    (tracked s i /\ (hit_counter (f_post f0) i + 1 <= hit_counter s i /\ life c (s_store (f_post f0) i) + 1 <= life c (s_store s i))%Z)).
  { intros i Hi. destruct (Hl0 i Hi) as [X|[X D]].
    - left. split; [exact X|]. pose proof (W2 i (valid_tracked _ _ (proj1 Gq) Hi)) as Wi.
      split; [exact (proj1 (proj2 Wi))|apply (life_top _ _ _ Wi)].
    - right. pose proof (kept_tracked _ _ _ X) as Ht. unfold tracked. rewrite <- S2. split; [exact Ht|].
      pose proof (life_missed c _ _ _ _ (proj2 Gp i (valid_tracked _ _ (proj1 Gp) Ht)) X D) as Lf. rewrite S1 in Lf, D.
      unfold hit_counter. rewrite (um_hit _ _ D), st_hit. split; [lia|exact Lf]. }
  intros [|n] f i Hf Hi; cbn [nth_error] in Hf.
  - injection Hf as <-. destruct (Step i Hi) as [(A & B & C)|(A & B & C)].
    + left. exists 0, l0. split; [auto|]. split; [reflexivity|]. split; [exact A|]. cbn [Nat.sub]. lia.
    + right. split; [exact A|]. lia.
  - destruct (Hcs n f i Hf Hi) as [(m & l & A & B & C & D)|(A & B & C)].
    + left. exists (S m), l. split; [lia|]. split; [exact B|]. split; [exact C|]. exact D.
    + destruct (Step i A) as [(A' & B' & C')|(A' & B' & C')].
      * left. exists 0, l0. split; [lia|]. split; [reflexivity|]. split; [exact A'|]. lia.
      * right. split; [exact A'|]. lia.
Qed.

(* ---- counting ---- *)
Lemma in_latest {A} (cs : list A) k n m l : m <= n -> n - m < k -> nth_error cs m = Some l ->
  In l (skipn (S n - k) (firstn (S n) cs)).
Proof.
  intros H1 H2 H3. assert (X : nth_error (firstn (S n) cs) m = Some l).
  { clear k H2. revert n m H1 H3. induction cs as [|a cs IH]; intros n m H1 H3; [destruct m; discriminate|].
    destruct m as [|m]; [exact H3|]. cbn [firstn nth_error] in *. destruct n as [|n]; [lia|]. apply IH; [lia|exact H3]. }
  apply (nth_error_In _ (m - (S n - k))). rewrite <- X. revert X. generalize (firstn (S n) cs). intros q _.
  replace m with ((S n - k) + (m - (S n - k))) at 2 by lia. generalize (m - (S n - k)). generalize (S n - k).
  clear. intros a. revert q. induction a as [|a IH]; intros q b; [reflexivity|]. destruct q; [destruct b; reflexivity|]. cbn. apply IH.
Qed.

Lemma Forall2_firstn {A B} (R : A -> B -> Prop) l l' n : Forall2 R l l' -> Forall2 R (firstn n l) (firstn n l').
Proof. intros H. revert n. induction H; intros [|n]; cbn; constructor; auto. Qed.
Lemma Forall2_skipn {A B} (R : A -> B -> Prop) l l' n : Forall2 R l l' -> Forall2 R (skipn n l) (skipn n l').
Proof. intros H. revert n. induction H; intros [|n]; cbn; auto. Qed.

Lemma count_objects (objs : list nat) (fs : list frame) (cs : list (list nat)) :
  NoDup objs -> Forall2 (fun f l => List.length l = List.length (f_dets f)) fs cs ->
  (forall i, In i objs -> exists l, In l cs /\ In i l) -> List.length objs <= detections fs.
Proof.
  intros Nd F H. assert (E : detections fs = List.length (List.concat cs)).
  { clear H. unfold detections. induction F as [|f l fs cs A F IH]; [reflexivity|].
    cbn [map List.concat]. rewrite app_length, <- IH, A. reflexivity. }
  rewrite E. apply NoDup_incl_length; [exact Nd|]. intros i Hi. destruct (H i Hi) as (l & A & B). apply in_concat. eauto.
Qed.

Section Main.
Variables (c : tconf FO) (P : Z) (s : st) (fs : list frame).
Hypotheses (Hr : rnd_ok (tc_rnd c)) (Ht : tracker_state c s) (H0 : s_icount s = 0) (V : video c s fs)
  (HP : forall f, In f fs -> (f_period f <= P)%Z).

Lemma fresh_trail : exists cs, Forall2 (fun f l => List.length l = List.length (f_dets f)) fs cs /\
  forall n f i, nth_error fs n = Some f -> tracked (f_post f) i ->
    exists m l, m <= n /\ nth_error cs m = Some l /\ In i l /\
       (hit_counter (f_post f) i + Z.of_nat (n - m) <= Z.of_nat (top_counter c P) /\
        life c (s_store (f_post f) i) + 1 + Z.of_nat (n - m) <= Z.of_nat (held_calls c P))%Z.
Proof.
  apply tracker_state_good in Ht as Hg.
  destruct (trail c P s fs Hr Hg) as (cs & A & B); auto.
  { intros i Hi. unfold valid in Hi. lia. }
  exists cs. split; [exact A|]. intros n f i Hf Hi. destruct (B n f i Hf Hi) as [X|[X _]]; [exact X|].
  exfalso. apply (valid_tracked _ _ (proj1 Hg)) in X. unfold valid in X. lia.
Qed.

Lemma post_good n f : nth_error fs n = Some f -> good c (f_post f) /\ f_out f = get_active_objects (f_post f).
Proof.
  apply tracker_state_good in Ht as Hg. clear Ht H0 HP. revert s Hg V n. induction fs as [|f0 l IH]; intros s0 Hg V0 n Hf; [destruct n; discriminate|].
  destruct (video_cons_inv laws _ _ _ _ V0 Hr Hg) as (Gp & Gq & E & Eo & S1 & S2 & S3 & V').
  destruct n as [|n]; [injection Hf as <-; auto|]. eapply IH; eauto.
Qed.

Theorem tracked_bounded n f : nth_error fs n = Some f ->
  List.length (s_tracked (f_post f)) <= detections (latest (held_calls c P) n fs).
Proof.
  intros Hf. destruct fresh_trail as (cs & A & B). destruct (post_good n f Hf) as [Gq _].
  apply (count_objects _ _ (skipn (S n - held_calls c P) (firstn (S n) cs))).
  - apply (ti_nodup _ (proj1 Gq)).
  - apply Forall2_skipn, Forall2_firstn, A.
  - intros i Hi. destruct (B n f i Hf Hi) as (m & l & M1 & M2 & M3 & M4 & M5). exists l. split; [|exact M3].
    apply (in_latest cs _ n m l M1); [|exact M2]. pose proof (life_nonneg c (s_store (f_post f) i)). lia.
Qed.

Theorem returned_bounded n f : nth_error fs n = Some f ->
  List.length (f_out f) <= detections (latest (S (top_counter c P)) n fs).
Proof.
  intros Hf. destruct fresh_trail as (cs & A & B). destruct (post_good n f Hf) as [Gq Eo].
  apply (count_objects _ _ (skipn (S n - S (top_counter c P)) (firstn (S n) cs))).
  - rewrite Eo. apply NoDup_filter, (ti_nodup _ (proj1 Gq)).
  - apply Forall2_skipn, Forall2_firstn, A.
  - intros i Hi. rewrite Eo in Hi. apply active_iff in Hi as (Hi & _ & Hp). destruct (B n f i Hf Hi) as (m & l & M1 & M2 & M3 & M4 & M5). exists l. split; [|exact M3].
    apply (in_latest cs _ n m l M1); [|exact M2]. lia.
Qed.

Lemma detections_le D (l : list frame) : (forall f, In f l -> List.length (f_dets f) <= D) -> detections l <= List.length l * D.
Proof.
  unfold detections. induction l as [|f l IH]; intros H; [apply Nat.le_refl|].
  pose proof (H f (or_introl eq_refl)) as Hf. specialize (IH (fun g Hg => H g (or_intror Hg))).
  cbn [map List.length]. rewrite Nat.mul_succ_l.
  change (list_sum (List.length (f_dets f) :: map (fun f => List.length (f_dets f)) l)) with (List.length (f_dets f) + list_sum (map (fun f => List.length (f_dets f)) l)). lia.
Qed.
Lemma latest_in k n f : In f (latest k n fs) -> In f fs.
Proof.
  unfold latest. intros H. assert (In f (firstn (S n) fs)).
  { rewrite <- (firstn_skipn (S n - k) (firstn (S n) fs)). apply in_app_iff. auto. }
  rewrite <- (firstn_skipn (S n) fs). apply in_app_iff. auto.
Qed.
Lemma latest_length k n : List.length (latest k n fs) <= k.
Proof. unfold latest. rewrite skipn_length, firstn_length. lia. Qed.

Theorem memory_bounded D : (forall f, In f fs -> List.length (f_dets f) <= D) ->
  forall f, In f fs -> List.length (s_tracked (f_post f)) <= held_calls c P * D /\ List.length (f_out f) <= S (top_counter c P) * D.
Proof.
  intros HD f Hf. apply In_nth_error in Hf as (n & Hf).
  pose proof (tracked_bounded n f Hf) as A. pose proof (returned_bounded n f Hf) as B.
  pose proof (detections_le D (latest (held_calls c P) n fs) (fun g Hg => HD g (latest_in _ _ _ Hg))) as A'.
  pose proof (detections_le D (latest (S (top_counter c P)) n fs) (fun g Hg => HD g (latest_in _ _ _ Hg))) as B'.
  pose proof (Nat.mul_le_mono_r _ _ D (latest_length (held_calls c P) n)).
  pose proof (Nat.mul_le_mono_r _ _ D (latest_length (S (top_counter c P)) n)). lia.
Qed.
End Main.
End Memory.

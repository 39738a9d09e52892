(** Sequences of calls: initialization, continuous matching, skipped frames, re-identification. *)
From Coq Require Import ZArith Bool Arith String List Lia Permutation Sorting.Sorted.
From Verif Require Import Model.Num Model.Base Model.Matching Model.Filter Model.Tracker
  Spec.MatchingSpec Spec.IdentitySpec Spec.CallSpec Proofs.NumLaws Proofs.MatchingProofs Proofs.TrackerFrame Proofs.Identity
  Proofs.Effect Proofs.CallEffect Proofs.CallProps Proofs.CallTheorems.
Import ListNotations.

Section CallTheorems2.
Context {N : Num} {FO : filter_ops N} (laws : NumLaws N).
Notation st := (st FO).
Notation tobj := (tobj FO).
Notation frame := (CallSpec.frame FO).

(** An object whose last_detection changed to one of the call was matched or took over a detection. *)
Lemma fate_seen c dets p ct (s s' : st) i : fate c dets p ct s s' i -> conf_ok c (s_store s i) ->
  In (last_det s' i) dets -> ~ In (last_det s i) dets ->
  (In i (alive c s) /\ hit_counter s' i = Z.min (hit_counter s i - 1 + 2 * p) (tc_hit_counter_max c) /\
   o_initializing (s_store s' i) = o_initializing (s_store s i) && negb (tc_delay c <? hit_counter s' i)%Z /\
   o_reid (s_store s' i) = o_reid (obj_update_ct ct (tracker_step (s_store s i))) /\
   o_conf (s_store s' i) = o_conf (s_store s i) /\ o_age (s_store s' i) = (o_age (s_store s i) + 1)%Z /\
   (tracked s' i \/ (~ tracked s' i /\ o_initializing (s_store s i) = true /\ tc_reid_distance c <> None))) \/
  (In i (kept c s) /\ tracked s' i /\ tc_reid_distance c <> None /\
   (0 <= hit_counter s i -> o_initializing (s_store s i) = false)%Z /\
   hit_counter s' i = (2 * oc_initial_period (o_conf (s_store s i)))%Z /\
   o_initializing (s_store s' i) = o_initializing (s_store s i) /\ o_reid (s_store s' i) = None /\
   o_conf (s_store s' i) = o_conf (s_store s i) /\ o_age (s_store s' i) = (o_age (s_store s i) + 1)%Z).
Proof.
  intros F CO Hs Hf. unfold last_det, hit_counter in *.
  destruct F as [A B D|A B D|r d om A B D F G0 G1|j om A B R0 I0 D F F' L G0 G1].
  - rewrite D in Hs. contradiction.
  - rewrite (um_last _ _ D), st_last in Hs. contradiction.
  - left. split; auto. destruct F as (o1 & F1 & F2). rewrite F2. cbn.
    rewrite (hr_hit _ _ _ _ _ F1), (hr_init _ _ _ _ _ F1), (hr_hit _ _ _ _ _ F1), (hr_reid _ _ _ _ _ F1), (hr_conf _ _ _ _ _ F1),
      (hr_age _ _ _ _ _ F1), (um_hit _ _ D), (um_init _ _ D), (um_reid _ _ D), (um_conf _ _ D), (um_age _ _ D), st_hit, st_init, st_conf, st_age,
      (co_hcm _ _ CO), (co_delay _ _ CO). repeat split; auto.
  - right. split; auto. split; auto. split; auto. split; auto.
    rewrite (mr_hit _ _ _ G1), (mr_init _ _ _ G1), (mr_reid _ _ _ G1), (mr_conf _ _ _ G1), (mr_age _ _ _ G1),
      (um_init _ _ G0), (um_conf _ _ G0), (um_age _ _ G0), st_conf, st_init, st_age. repeat split; auto.
Qed.

Lemma frame_fate c (s : st) f fs i : video c s (f :: fs) -> rnd_ok (tc_rnd c) -> good c s -> tracked s i ->
  fate c (f_dets f) (f_period f) (f_ct f) (f_pre f) (f_post f) i /\ conf_ok c (s_store (f_pre f) i).
Proof.
  intros V Hr Hg Hi. destruct (video_cons_inv laws _ _ _ _ V Hr Hg) as (Gp & Gq & E & _ & S1 & S2 & S3 & V').
  assert (Hi1 : tracked (f_pre f) i) by (unfold tracked; rewrite S2; exact Hi).
  split; [apply (update_fate laws _ _ _ _ _ _ _ i Hr Gp E Hi1)|].
  apply (proj2 Gp). apply valid_tracked; [apply Gp|auto].
Qed.

(* ---- C17 ---- *)
Definition due (c : tconf FO) (s : st) (i n : nat) : Prop :=
  tracked s i /\ (1 <= hit_counter s i)%Z /\ o_reid (s_store s i) = None /\ oc_initial_period (o_conf (s_store s i)) = 1%Z /\
  (if (Z.of_nat n <? tc_delay c)%Z
   then o_initializing (s_store s i) = true /\ hit_counter s i = (1 + Z.of_nat n)%Z
   else o_initializing (s_store s i) = false).

Lemma due_active c (s : st) i n : (0 <= tc_delay c)%Z -> due c s i n -> (In i (get_active_objects s) <-> Z.to_nat (tc_delay c) <= n).
Proof.
  intros Hd (A & B & C & D & E). rewrite active_iff. destruct (Z.ltb_spec (Z.of_nat n) (tc_delay c)) as [H|H].
  - destruct E as [E _]. rewrite E. split; [intros (_ & X & _); discriminate|lia].
  - split; [lia|]. intros _. repeat split; auto. lia.
Qed.

Lemma due_kept c (s : st) i n : due c s i n -> In i (kept c s).
Proof. intros (A & B & C & D & E). apply kept_iff. rewrite C. split; auto. destruct (tc_reid_max c); auto. lia. Qed.

Lemma due_step c dets p ct (s s' : st) i n : p = 1%Z -> (0 <= tc_delay c < tc_hit_counter_max c)%Z ->
  conf_ok c (s_store s i) -> fate c dets p ct s s' i -> due c s i n ->
  In (last_det s' i) dets -> ~ In (last_det s i) dets -> (tc_reid_distance c = None \/ tracked s' i) -> due c s' i (S n).
Proof.
  intros -> Hd CO F (A & B & C & D & E) Hs Hf Hre.
  destruct (fate_seen _ _ _ _ _ _ _ F CO Hs Hf) as [(F1 & F2 & F3 & F4 & F5 & F6 & F7)|(F1 & F2 & F3 & F4 & F5 & F6 & F7 & F8 & F9)].
  - unfold due. rewrite F5, F3, F4, st_reid, C, F2, D. unfold hit_counter in *.
    split; [destruct F7 as [|(F7 & _ & F8)]; auto; destruct Hre; auto; contradiction|].
    split; [lia|]. split; [destruct (Z.leb_spec (o_hit (s_store s i)) 0); [lia|reflexivity]|]. split; [reflexivity|].
    destruct (Z.ltb_spec (Z.of_nat n) (tc_delay c)) as [H|H].
    + destruct E as [E1 E2]. rewrite E1, E2 in *. rewrite andb_true_l.
      destruct (Z.ltb_spec (Z.of_nat (S n)) (tc_delay c)) as [H'|H'].
      * split; [|lia]. destruct (Z.ltb_spec (tc_delay c) (Z.min (1 + Z.of_nat n - 1 + 2 * 1) (tc_hit_counter_max c))); [lia|reflexivity].
      * destruct (Z.ltb_spec (tc_delay c) (Z.min (1 + Z.of_nat n - 1 + 2 * 1) (tc_hit_counter_max c))); [reflexivity|lia].
    + rewrite E. destruct (Z.ltb_spec (Z.of_nat (S n)) (tc_delay c)); [lia|reflexivity].
  - specialize (F4 ltac:(lia)). unfold due. rewrite F8, F7, F6, F5, D. split; [auto|]. split; [lia|]. split; [reflexivity|]. split; [reflexivity|].
    destruct (Z.ltb_spec (Z.of_nat n) (tc_delay c)) as [H|H]; [destruct E as [E _]; congruence|].
    destruct (Z.ltb_spec (Z.of_nat (S n)) (tc_delay c)); [lia|auto].
Qed.

Lemma due_video c (s : st) fs i k : rnd_ok (tc_rnd c) -> good c s -> video c s fs -> due c s i k ->
  (0 <= tc_delay c < tc_hit_counter_max c)%Z -> (forall f, In f fs -> f_period f = 1%Z /\ seen f i /\ fresh f i) ->
  (tc_reid_distance c = None \/ forall f, In f fs -> tracked (f_post f) i) ->
  forall n f, nth_error fs n = Some f -> (In i (f_out f) <-> Z.to_nat (tc_delay c) <= S (k + n)).
Proof.
  intros Hr. revert s k. induction fs as [|f0 fs IH]; intros s k Hg V Hdu Hd Hfs Hre n f Hf; [destruct n; discriminate|].
  destruct (video_cons_inv laws _ _ _ _ V Hr Hg) as (Gp & Gq & E & Eo & S1 & S2 & S3 & V').
  destruct (frame_fate _ _ _ _ i V Hr Hg ltac:(apply Hdu)) as (F & CO).
  destruct (Hfs f0 (or_introl eq_refl)) as (P1 & P2 & P3).
  assert (Hdu1 : due c (f_pre f0) i k).
  { destruct Hdu as (A & B & C & D & E'). unfold due, tracked, hit_counter in *. rewrite S1, S2. auto. }
  assert (Hdu2 : due c (f_post f0) i (S k)).
  { eapply due_step; eauto. destruct Hre as [|Hre]; auto. right. apply Hre. left; reflexivity. }
  destruct n as [|n]; cbn in Hf.
  - injection Hf as <-. rewrite Eo, Nat.add_0_r. apply due_active; auto. lia.
  - rewrite (IH (f_post f0) (S k)) with (n := n); auto.
    + cbn. rewrite Nat.add_succ_r. reflexivity.
    + intros g Hgf. apply Hfs. right; exact Hgf.
    + destruct Hre as [|Hre]; auto. right. intros g Hgf. apply Hre. right; exact Hgf.
Qed.

Theorem initialization_delay_exact c (s : st) f0 fs i : rnd_ok (tc_rnd c) -> tracker_state c s -> video c s (f0 :: fs) ->
  (0 <= tc_delay c < tc_hit_counter_max c)%Z ->
  s_icount (f_pre f0) < i <= s_icount (f_post f0) -> f_period f0 = 1%Z ->
  (forall f, In f fs -> f_period f = 1%Z /\ seen f i /\ fresh f i) ->
  (tc_reid_distance c = None \/ forall f, In f fs -> tracked (f_post f) i) ->
  forall n f, nth_error (f0 :: fs) n = Some f -> (In i (f_out f) <-> Z.to_nat (tc_delay c) <= n).
Proof.
  intros Hr Ht V Hd Hi Hp Hfs Hre n f Hf. apply tracker_state_good in Ht.
  destruct (video_cons_inv laws _ _ _ _ V Hr Ht) as (Gp & Gq & E & Eo & S1 & S2 & S3 & V').
  destruct (new_object laws _ _ _ _ _ _ _ _ Hr Gp E Hi) as (Hti & r & Hri & NR). rewrite Hp in *.
  assert (Hdu : due c (f_post f0) i 0).
  { unfold due, hit_counter. rewrite (nr_hit _ _ _ _ _ _ _ NR), (nr_reid _ _ _ _ _ _ _ NR), (nr_conf _ _ _ _ _ _ _ NR), (nr_init _ _ _ _ _ _ _ NR). cbn.
    split; auto. split; [lia|]. split; [reflexivity|]. split; [reflexivity|].
    destruct (Z.ltb_spec 0 (tc_delay c)); [split; [|reflexivity]; apply Z.leb_le; lia|apply Z.leb_gt; lia]. }
  destruct n as [|n]; cbn in Hf.
  - injection Hf as <-. rewrite Eo. apply due_active; auto. lia.
  - rewrite (due_video c (f_post f0) fs i 0 Hr Gq V' Hdu Hd Hfs Hre n f Hf). cbn. reflexivity.
Qed.

(* ---- C18 ---- *)
Lemma seen_returned c (s : st) f fs i : rnd_ok (tc_rnd c) -> good c s -> video c s (f :: fs) -> tracked s i ->
  o_initializing (s_store s i) = false -> (0 <= tc_hit_counter_max c)%Z -> (0 <= oc_initial_period (o_conf (s_store s i)))%Z ->
  (1 <= f_period f)%Z -> seen f i -> fresh f i -> In i (f_out f).
Proof.
  intros Hr Hg V Hi Hini Hm Hp0 Hp Hs Hf.
  destruct (video_cons_inv laws _ _ _ _ V Hr Hg) as (Gp & Gq & E & Eo & S1 & S2 & S3 & V').
  destruct (frame_fate _ _ _ _ i V Hr Hg Hi) as (F & CO).
  rewrite Eo, active_iff.
  destruct (fate_seen _ _ _ _ _ _ _ F CO Hs Hf) as [(F1 & F2 & F3 & F4 & F5 & F6 & F7)|(F1 & F2 & F3 & F4 & F5 & F6 & F7 & F8 & F9)].
  - apply alive_iff in F1 as [_ F1]. rewrite F2, F3, S1, Hini, andb_false_l.
    split; [|split; [reflexivity|]]; [destruct F7 as [|(_ & F7 & _)]; auto; rewrite S1 in F7; congruence|]. unfold hit_counter in *. rewrite S1 in *. lia.
  - rewrite F5, F6, S1. split; auto. split; auto. lia.
Qed.

Lemma frame_conf c (s : st) f fs i : rnd_ok (tc_rnd c) -> good c s -> video c s (f :: fs) -> tracked s i ->
  o_conf (s_store (f_post f) i) = o_conf (s_store s i).
Proof.
  intros Hr Hg V Hi. destruct (video_cons_inv laws _ _ _ _ V Hr Hg) as (Gp & Gq & E & Eo & S1 & S2 & S3 & V').
  destruct (frame_fate _ _ _ _ i V Hr Hg Hi) as (F & CO). rewrite <- S1.
  destruct F as [A B D|A B D|r d om A B D F G0 G1|j om A B R0 I0 D F F' L G0 G1].
  - rewrite D. reflexivity.
  - rewrite (um_conf _ _ D), st_conf. reflexivity.
  - destruct F as (o1 & F1 & F2). rewrite F2. cbn. rewrite (hr_conf _ _ _ _ _ F1), (um_conf _ _ D), st_conf. reflexivity.
  - rewrite (mr_conf _ _ _ G1), (um_conf _ _ G0), st_conf. reflexivity.
Qed.

Theorem matched_always_returned c (s : st) fs i : rnd_ok (tc_rnd c) -> tracker_state c s -> video c s fs -> tracked s i ->
  o_initializing (s_store s i) = false -> (0 <= tc_hit_counter_max c)%Z -> (0 <= oc_initial_period (o_conf (s_store s i)))%Z ->
  (forall f, In f fs -> (1 <= f_period f)%Z /\ seen f i /\ fresh f i) ->
  forall f, In f fs -> In i (f_out f).
Proof.
  intros Hr Ht. apply tracker_state_good in Ht. revert s Ht.
  induction fs as [|f0 fs IH]; intros s Hg V Hi Hini Hm Hp0 Hfs f Hf; [destruct Hf|].
  destruct (video_cons_inv laws _ _ _ _ V Hr Hg) as (Gp & Gq & E & Eo & S1 & S2 & S3 & V').
  destruct (Hfs f0 (or_introl eq_refl)) as (P1 & P2 & P3).
  assert (Ho : In i (f_out f0)) by (apply (seen_returned c s f0 fs i Hr Hg V); auto).
  destruct Hf as [<-|Hf]; auto. rewrite Eo in Ho. apply active_iff in Ho as (O1 & O2 & O3).
  apply (IH (f_post f0)); auto.
  - rewrite (frame_conf _ _ _ _ _ Hr Hg V Hi). auto.
  - intros g Hgf. apply Hfs. right; exact Hgf.
Qed.

(** Without a re-identification countdown a returned object takes part in the next call. *)
Theorem returned_takes_part c (s : st) f fs i : rnd_ok (tc_rnd c) -> tracker_state c s -> video c s (f :: fs) ->
  In i (get_active_objects s) -> tc_reid_max c = None -> tracked (f_post f) i.
Proof.
  intros Hr Ht V Ha Hre. apply tracker_state_good in Ht.
  destruct (video_cons_inv laws _ _ _ _ V Hr Ht) as (Gp & Gq & E & Eo & S1 & S2 & S3 & V').
  apply active_iff in Ha as (A & B & C). destruct (frame_fate _ _ _ _ i V Hr Ht A) as (F & CO).
  assert (K : In i (kept c (f_pre f))).
  { apply kept_iff. rewrite Hre. unfold tracked, hit_counter. rewrite S1, S2. auto. }
  destruct F as [A' B' D|A' B' D|r d om A' B' D F G0 G1|j om A' B' R0 I0 D F F' L G0 G1]; auto; try contradiction.
  destruct G1 as [|(_ & G1 & _)]; auto. rewrite S1 in G1. congruence.
Qed.

(* ---- C19 ---- *)
Theorem skipped_frames c (s : st) fs i p : rnd_ok (tc_rnd c) -> tracker_state c s -> video c s fs ->
  In i (get_active_objects s) -> tc_reid_max c = None -> tc_reid_distance c = None ->
  1 <= p -> (Z.of_nat p - 1 <= tc_hit_counter_max c)%Z ->
  (forall n f, nth_error fs n = Some f ->
     if Nat.eqb (n mod p) 0 then f_period f = Z.of_nat p /\ seen f i /\ fresh f i else f_dets f = []) ->
  forall f, In f fs -> In i (f_out f).
Proof.
  intros Hr Ht V Ha Hre Hrd Hp Hm Hfs. apply tracker_state_good in Ht.
  (* generalise: k frames since the last detector frame *)
  assert (H : forall fs (s : st) k, good c s -> video c s fs -> tracked s i -> o_initializing (s_store s i) = false ->
    k < p -> (0 <= hit_counter s i)%Z -> (k <> 0 -> (Z.of_nat (p - k) <= hit_counter s i)%Z) ->
    (forall n f, nth_error fs n = Some f ->
       if Nat.eqb ((k + n) mod p) 0 then f_period f = Z.of_nat p /\ seen f i /\ fresh f i else f_dets f = []) ->
    forall f, In f fs -> In i (f_out f)).
  2:{ apply active_iff in Ha as (A & B & C). apply (H fs s 0); auto. lia. }
  clear fs s Ht V Ha Hfs. induction fs as [|f0 fs IH]; intros s k Hg V Hi Hini Hk H0 Hh Hfs f Hf; [destruct Hf|].
  destruct (video_cons_inv laws _ _ _ _ V Hr Hg) as (Gp & Gq & E & Eo & S1 & S2 & S3 & V').
  destruct (frame_fate _ _ _ _ i V Hr Hg Hi) as (F & CO).
  assert (K : In i (kept c (f_pre f0))).
  { apply kept_iff. rewrite Hre. unfold tracked, hit_counter in *. rewrite S1, S2. auto. }
  pose proof (Hfs 0 f0 eq_refl) as Hf0. rewrite Nat.add_0_r, (Nat.mod_small k p Hk) in Hf0.
  assert (G : tracked (f_post f0) i /\ o_initializing (s_store (f_post f0) i) = false /\
              (0 <= hit_counter (f_post f0) i)%Z /\ (Z.of_nat (p - S k) <= hit_counter (f_post f0) i)%Z).
  { destruct (Nat.eqb_spec k 0) as [->|Hk0].
    - destruct Hf0 as (P1 & P2 & P3).
      destruct (fate_seen _ _ _ _ _ _ _ F CO P2 P3) as [(F1 & F2 & F3 & F4 & F5 & F6 & F7)|(F1 & F2 & F3 & F4 & F5 & F6 & F7 & F8 & F9)].
      + rewrite F2, F3, S1, Hini, P1. unfold hit_counter in *. rewrite S1, andb_false_l.
        split; [destruct F7 as [|(_ & F7 & _)]; auto; rewrite S1 in F7; congruence|]. split; [reflexivity|]. split; lia.
      + contradiction.
    - assert (Hns : ~ In (last_det (f_post f0) i) (f_dets f0)) by (rewrite Hf0; auto).
      destruct (fate_unseen _ _ _ _ _ _ _ F Hns) as [(A & B & D)|(A & B & D)]; [contradiction|].
      split; auto. unfold hit_counter in *. rewrite (um_init _ _ D), st_init, S1, (um_hit _ _ D), st_hit, S1. specialize (Hh Hk0). split; auto. lia. }
  destruct G as (G1 & G2 & G3 & G4).
  destruct Hf as [<-|Hf]; [rewrite Eo, active_iff; auto|].
  destruct (Nat.eq_dec (S k) p) as [Ek|Ek].
  - apply (IH (f_post f0) 0); auto; try lia. intros n g Hn. specialize (Hfs (S n) g Hn).
    replace (k + S n) with (n + 1 * p) in Hfs by lia. rewrite Nat.mod_add in Hfs by lia. cbn. exact Hfs.
  - apply (IH (f_post f0) (S k)); auto; try lia. intros n g Hn. specialize (Hfs (S n) g Hn).
    replace (S k + n) with (k + S n) by lia. exact Hfs.
Qed.

(* ---- C20 ---- *)
Theorem age_counts_calls c (s : st) f0 fs i : rnd_ok (tc_rnd c) -> tracker_state c s -> video c s (f0 :: fs) ->
  s_icount (f_pre f0) < i <= s_icount (f_post f0) ->
  forall n f, nth_error (f0 :: fs) n = Some f -> tracked (f_post f) i -> o_age (s_store (f_post f) i) = Z.of_nat n.
Proof.
  intros Hr Ht V Hi. apply tracker_state_good in Ht.
  destruct (video_cons_inv laws _ _ _ _ V Hr Ht) as (Gp & Gq & E & Eo & S1 & S2 & S3 & V').
  destruct (new_object laws _ _ _ _ _ _ _ _ Hr Gp E Hi) as (Hti & r & Hri & NR).
  assert (H : forall fs (s : st) k, good c s -> video c s fs -> tracked s i -> o_age (s_store s i) = Z.of_nat k ->
    forall n f, nth_error fs n = Some f -> tracked (f_post f) i -> o_age (s_store (f_post f) i) = Z.of_nat (S (k + n))).
  { clear -laws Hr. induction fs as [|f0 fs IH]; intros s k Hg V Hi Ha n f Hf Hti; [destruct n; discriminate|].
    destruct (video_cons_inv laws _ _ _ _ V Hr Hg) as (Gp & Gq & E & Eo & S1 & S2 & S3 & V').
    assert (Hi1 : tracked (f_pre f0) i) by (unfold tracked; rewrite S2; exact Hi).
    assert (Hti0 : tracked (f_post f0) i).
    { destruct n as [|n]; cbn in Hf; [injection Hf as <-; exact Hti|].
      destruct (in_dec Nat.eq_dec i (s_tracked (f_post f0))) as [|Hn]; auto. exfalso.
      eapply (gone_stays laws c (f_post f0) fs i Hr Gq V'); eauto.
      apply update_icount in E; auto. pose proof (valid_tracked _ _ (proj1 Gp) Hi1). unfold valid in *. lia. }
    assert (A1 : o_age (s_store (f_post f0) i) = Z.of_nat (S k)).
    { destruct (frame_fate _ _ _ _ i V Hr Hg Hi) as (F & CO). rewrite Nat2Z.inj_succ, <- Ha, <- S1.
      destruct F as [A B D|A B D|r d om A B D F G0 G1|j om A B R0 I0 D F F' L G0 G1].
      - contradiction.
      - rewrite (um_age _ _ D), st_age. reflexivity.
      - destruct F as (o1 & F1 & F2). rewrite F2. cbn. rewrite (hr_age _ _ _ _ _ F1), (um_age _ _ D), st_age. reflexivity.
      - rewrite (mr_age _ _ _ G1), (um_age _ _ G0), st_age. reflexivity. }
    destruct n as [|n]; cbn in Hf.
    - injection Hf as <-. rewrite Nat.add_0_r. exact A1.
    - rewrite (IH (f_post f0) (S k) Gq V' Hti0 A1 n f Hf Hti). cbn. rewrite Nat.add_succ_r. reflexivity. }
  intros n f Hf Hti'. destruct n as [|n]; cbn in Hf.
  - injection Hf as <-. rewrite (nr_age _ _ _ _ _ _ _ NR). reflexivity.
  - rewrite (H fs (f_post f0) 0 Gq V' Hti (nr_age _ _ _ _ _ _ _ NR) n f Hf Hti'). reflexivity.
Qed.

(* ---- C21 ---- *)
(** [h] returned calls remain and then the countdown starts. *)
Definition waning (r : nat) (s : st) (i m : nat) : Prop :=
  tracked s i /\
  ((o_reid (s_store s i) = None /\ hit_counter s i = (Z.of_nat m - Z.of_nat r - 2)%Z /\ r + 2 <= m) \/
   (o_reid (s_store s i) = Some (Z.of_nat m - 1)%Z /\ (hit_counter s i < 0)%Z /\ m < r + 2)).

Theorem dead_object_kept c (s : st) fs i h r : rnd_ok (tc_rnd c) -> tracker_state c s -> video c s fs ->
  tc_reid_max c = Some (Z.of_nat r) -> tracked s i -> o_reid (s_store s i) = None -> hit_counter s i = Z.of_nat h ->
  (forall f, In f fs -> ~ seen f i) ->
  forall n f, nth_error fs n = Some f -> (tracked (f_post f) i <-> n < h + r + 2) /\ (h <= n -> ~ In i (f_out f)).
Proof.
  intros Hr Ht V Hre Hi Hrn Hh Hns. apply tracker_state_good in Ht.
  assert (H : forall fs (s : st) m, good c s -> video c s fs -> waning r s i m -> (forall f, In f fs -> ~ seen f i) ->
     forall n f, nth_error fs n = Some f -> (tracked (f_post f) i <-> n < m) /\ (m - (r + 2) <= n -> ~ In i (f_out f))).
  2:{ replace (h + r + 2) with (h + r + 2) by lia. intros n f Hf. destruct (H fs s (h + r + 2) Ht V) with (n := n) (f := f) as [A B]; auto.
      - split; auto. left. split; auto. split; lia.
      - split; auto. intros X. apply B. lia. }
  clear fs s h Ht V Hi Hrn Hh Hns. induction fs as [|f0 fs IH]; intros s m Hg V [Hi Hw] Hns n f Hf; [destruct n; discriminate|].
  destruct (video_cons_inv laws _ _ _ _ V Hr Hg) as (Gp & Gq & E & Eo & S1 & S2 & S3 & V').
  destruct (frame_fate _ _ _ _ i V Hr Hg Hi) as (F & CO).
  assert (Hns0 : ~ In (last_det (f_post f0) i) (f_dets f0)) by (apply Hns; left; reflexivity).
  assert (Hns' : forall f, In f fs -> ~ seen f i) by (intros g Hgf; apply Hns; right; exact Hgf).
  assert (Hi1 : tracked (f_pre f0) i) by (unfold tracked; rewrite S2; exact Hi).
  assert (Hkiff : In i (kept c (f_pre f0)) <-> m <> 0).
  { rewrite kept_iff, Hre, S1. destruct Hw as [(W1 & W2 & W3)|(W1 & W2 & W3)]; rewrite W1; split; intros; auto; try lia. split; [auto|lia]. }
  destruct (fate_unseen _ _ _ _ _ _ _ F Hns0) as [(A & B & D)|(A & B & D)].
  - assert (m = 0) as -> by (destruct m; [reflexivity|exfalso; apply A, Hkiff; discriminate]).
    assert (Hgone : forall n f, nth_error (f0 :: fs) n = Some f -> ~ tracked (f_post f) i).
    { clear n f Hf. intros n f Hf. destruct n as [|n]; cbn in Hf; [injection Hf as <-; exact B|].
      eapply (gone_stays laws c (f_post f0) fs i Hr Gq V'); eauto.
      apply update_icount in E; auto. pose proof (valid_tracked _ _ (proj1 Gp) Hi1). unfold valid in *. lia. }
    split; [split; [intros X; exfalso; eapply Hgone; eauto|lia]|].
    intros _ X. assert (Hout : f_out f = get_active_objects (f_post f)).
    { clear -V Hf Hr Hg laws. revert s Hg V n Hf. induction (f0 :: fs) as [|g l IHl]; intros s Hg V n Hf; [destruct n; discriminate|].
      destruct (video_cons_inv laws _ _ _ _ V Hr Hg) as (Gp & Gq & E & Eo & S1 & S2 & S3 & V').
      destruct n as [|n]; cbn in Hf; [injection Hf as <-; exact Eo|]. eapply IHl; eauto. }
    rewrite Hout, active_iff in X. destruct X as (X & _). eapply Hgone; eauto.
  - assert (Hm : m <> 0) by tauto. destruct m as [|m]; [lia|].
    assert (W' : waning r (f_post f0) i m).
    { split; auto. unfold hit_counter. rewrite (um_reid _ _ D), (um_hit _ _ D), st_reid, st_hit, S1, (eq_trans (f_equal _ (f_equal _ (eq_sym (f_equal (fun g => g i) S1)))) (co_reid _ _ CO)).
      destruct Hw as [(W1 & W2 & W3)|(W1 & W2 & W3)]; rewrite W1; unfold hit_counter in *.
      - destruct (Z.leb_spec (o_hit (s_store s i)) 0).
        + right. rewrite Hre. split; [f_equal; lia|]. split; lia.
        + left. split; auto. split; lia.
      - right. split; [f_equal; lia|]. split; lia. }
    destruct n as [|n]; cbn in Hf.
    + injection Hf as <-. split; [split; [lia|auto]|]. intros Hle. rewrite Eo, active_iff. intros (_ & _ & X).
      destruct W' as [_ [(W1 & W2 & W3)|(W1 & W2 & W3)]]; lia.
    + destruct (IH (f_post f0) m Gq V' W' Hns' n f Hf) as [X Y]. split; [rewrite X; lia|]. intros Hle. apply Y. lia.
Qed.
End CallTheorems2.

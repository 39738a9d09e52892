(** Skipped frames with re-identification, NaN from vectorized distances, labels that are printed alike. *)
From Coq Require Import ZArith Bool Arith String Ascii List Lia.
From Verif Require Import Model.Num Model.Base Model.Matching Model.Filter Model.Tracker
  Spec.MatchingSpec Spec.DistanceSpec Spec.CallSpec Proofs.NumLaws Proofs.MatchingProofs Proofs.TrackerFrame Proofs.Identity
  Proofs.Effect Proofs.CallEffect Proofs.CallProps Proofs.CallTheorems Proofs.CallTheorems2 Proofs.CallTheorems3 Proofs.CallTheorems4 Proofs.CallTheorems7 Proofs.DistanceProofs.
Import ListNotations.
Local Open Scope nat_scope.

Section CallTheorems8.
Context {N : Num} {FO : filter_ops N} (laws : NumLaws N).
Notation st := (st FO).
Notation frame := (CallSpec.frame FO).

Theorem skipped_frames_reid c (s : st) fs i p : rnd_ok (tc_rnd c) -> tracker_state c s -> video c s fs ->
  In i (get_active_objects s) -> o_reid (s_store s i) = None -> (1 <= hit_counter s i)%Z ->
  1 <= p -> (Z.of_nat p <= tc_hit_counter_max c)%Z ->
  (tc_reid_distance c = None \/ (Z.of_nat p <= 2 * oc_initial_period (o_conf (s_store s i)))%Z) ->
  (forall n f, nth_error fs n = Some f ->
     if Nat.eqb (n mod p) 0 then f_period f = Z.of_nat p /\ seen f i /\ fresh f i else f_dets f = []) ->
  forall f, In f fs -> In i (f_out f).
Proof.
  intros Hr Ht V Ha Hre Hh Hp Hm Hrd Hfs. apply tracker_state_good in Ht.
  assert (H : forall fs (s : st) k, good c s -> video c s fs -> tracked s i -> o_initializing (s_store s i) = false ->
    o_reid (s_store s i) = None -> (tc_reid_distance c = None \/ (Z.of_nat p <= 2 * oc_initial_period (o_conf (s_store s i)))%Z) ->
    k < p -> (1 <= hit_counter s i)%Z -> (k <> 0 -> (Z.of_nat (p - k) + 1 <= hit_counter s i)%Z) ->
    (forall n f, nth_error fs n = Some f ->
       if Nat.eqb ((k + n) mod p) 0 then f_period f = Z.of_nat p /\ seen f i /\ fresh f i else f_dets f = []) ->
    forall f, In f fs -> In i (f_out f)).
  2:{ apply active_iff in Ha as (A & B & C). apply (H fs s 0); auto. lia. }
  clear fs s Ht V Ha Hre Hh Hrd Hfs. induction fs as [|f0 fs IH]; intros s k Hg V Hi Hini Hre Hrd Hk H0 Hh Hfs f Hf; [destruct Hf|].
  destruct (video_cons_inv laws _ _ _ _ V Hr Hg) as (Gp & Gq & E & Eo & S1 & S2 & S3 & V').
  destruct (frame_fate laws _ _ _ _ i V Hr Hg Hi) as (F & CO).
  assert (K : In i (kept c (f_pre f0))).
  { apply kept_iff. unfold tracked, hit_counter in *. rewrite S1, S2, Hre. split; auto. destruct (tc_reid_max c); auto. lia. }
  pose proof (Hfs 0 f0 eq_refl) as Hf0. rewrite Nat.add_0_r, (Nat.mod_small k p Hk) in Hf0.
  assert (G : tracked (f_post f0) i /\ o_initializing (s_store (f_post f0) i) = false /\ o_reid (s_store (f_post f0) i) = None /\
              o_conf (s_store (f_post f0) i) = o_conf (s_store s i) /\
              (1 <= hit_counter (f_post f0) i)%Z /\ (Z.of_nat (p - S k) + 1 <= hit_counter (f_post f0) i)%Z).
  { destruct (Nat.eqb_spec k 0) as [->|Hk0].
    - destruct Hf0 as (P1 & P2 & P3).
      destruct (fate_seen _ _ _ _ _ _ _ F CO P2 P3) as [(F1 & F2 & F3 & F4 & F5 & F6 & F7)|(F1 & F2 & F3 & F4 & F5 & F6 & F7 & F8 & F9)].
      + rewrite F2, F3, F4, F5, st_reid, S1, Hini, Hre, P1. unfold hit_counter in *. rewrite S1, andb_false_l.
        split; [destruct F7 as [|(_ & F7 & _)]; auto; rewrite S1 in F7; congruence|]. split; [reflexivity|].
        split; [destruct (Z.leb_spec (o_hit (s_store s i)) 0); auto; lia|]. split; [reflexivity|]. split; lia.
      + rewrite F5, F6, F7, F8, S1. split; auto. split; auto. split; auto. split; auto.
        destruct Hrd as [Hrd|Hrd]; [contradiction|]. split; lia.
    - assert (Hns : ~ In (last_det (f_post f0) i) (f_dets f0)) by (rewrite Hf0; auto).
      destruct (fate_unseen _ _ _ _ _ _ _ F Hns) as [(A & B & D)|(A & B & D)]; [contradiction|].
      specialize (Hh Hk0). unfold hit_counter in *.
      rewrite (um_init _ _ D), st_init, (um_hit _ _ D), st_hit, (um_reid _ _ D), st_reid, (um_conf _ _ D), st_conf, S1, Hre.
      split; auto. split; auto. split; [destruct (Z.leb_spec (o_hit (s_store s i)) 0); auto; lia|]. split; auto. split; lia. }
  destruct G as (G1 & G2 & G3 & G4 & G5 & G6).
  destruct Hf as [<-|Hf]; [rewrite Eo, active_iff; split; auto; split; auto; lia|].
  destruct (Nat.eq_dec (S k) p) as [Ek|Ek].
  - apply (IH (f_post f0) 0); auto; try lia. { rewrite G4. auto. } intros n g Hn. specialize (Hfs (S n) g Hn).
    replace (k + S n) with (n + 1 * p) in Hfs by lia. rewrite Nat.mod_add in Hfs by lia. cbn. exact Hfs.
  - apply (IH (f_post f0) (S k)); auto; try lia. { rewrite G4. auto. } intros n g Hn. specialize (Hfs (S n) g Hn).
    replace (S k + n) with (k + S n) by lia. exact Hfs.
Qed.

(* ---- NaN from a vectorized distance ---- *)
Theorem nan_raises_vectorized c f g dets p ct (s : st) i r : rnd_ok (tc_rnd c) -> tracker_state c s ->
  tc_distance c = VectorizedDistance f -> pointwise f g ->
  let s0 := snd (begin_update c dets ct s) in
  (forall objects, (forall j, In j objects -> tracked s0 j) -> uniform_printed s0 objects (map CDet dets)) ->
  matchable c s i -> o_initializing (s_store s i) = false -> In r dets ->
  label_str (d_label (s_heap s0 r)) = label_str (obj_label s0 i) ->
  g (List.concat (d_points (s_heap s0 r))) (List.concat (estimate (s_store s0 i))) = DNaN ->
  exists s', update c (Some dets) p ct s = (s', Raise EValueError) /\
    s_icount s' = s_icount s /\ s_count s' = s_count s /\ s_gcount s' = s_gcount s /\ incl (s_tracked s') (s_tracked s) /\
    (forall j, tracked s' j -> s_store s' j = obj_update_ct ct (tracker_step (s_store s j))) /\
    (forall j, known s j -> ~ tracked s' j -> s_store s' j = s_store s j).
Proof.
  intros Hr Ht Ed Hf s0 Hu Hm Hi Hin Hl Hnan. apply tracker_state_good in Ht as [T C].
  destruct (begin_update c dets ct s) as [[al de] s0'] eqn:E. cbn in s0. subst s0.
  destruct (begin_update_effect _ _ _ _ _ _ _ (ti_nodup _ T) E) as (-> & -> & ST).
  exists s0'. split.
  2:{ destruct ST as [A1 A2 A3 A4 A5 A6 A7]. rewrite A5, A6, A7. unfold tracked. rewrite A4. repeat split; auto.
      intros j. apply kept_tracked. }
  unfold update. replace (match ct with Some _ => _ | None => _ end) with
    (let '(alive, dead, s) := begin_update c dets ct s in associate c alive dead dets p ct s) by (destruct ct; reflexivity).
  rewrite E. unfold associate.
  set (objs := filter _ (alive c s)).
  assert (Hsub : forall j, In j objs -> tracked s0' j).
  { intros j Hj. apply filter_In in Hj as [Hj _]. unfold tracked. rewrite (sp_tracked _ _ _ _ _ ST). apply alive_kept. exact Hj. }
  assert (Hobj : In i objs).
  { apply filter_In. apply matchable_alive in Hm. split; auto. rewrite (sp_step _ _ _ _ _ ST i (alive_kept _ _ _ Hm)), step_initializing, Hi. auto. }
  unfold update_objects_in_place. destruct dets as [|r0 dets']; [destruct Hin|]. set (dets := r0 :: dets') in *.
  change (map CDet dets) with (CDet r0 :: map CDet dets') at 1. cbv iota.
  rewrite Ed. cbn [get_distances]. rewrite (vectorized_printed _ _ _ _ _ _ Hf (Hu objs Hsub)).
  replace (existsb dis_nan _) with true; [reflexivity|]. symmetry. apply existsb_exists.
  exists (tc_rnd c DNaN). split; [|rewrite Hr; reflexivity]. apply in_concat. unfold printed_matrix.
  eexists. split; [apply in_map, in_map; exact Hin|]. apply in_map_iff. exists i. split; auto. cbn [cand_label view_cand].
  rewrite Hl, String.eqb_refl. f_equal. exact Hnan.
Qed.
End CallTheorems8.

(* ---- labels printed alike ---- *)
Lemma str_of_Z_not_None z : str_of_Z z <> "None"%string.
Proof.
  intros E. apply (f_equal (fun s => match s with String c _ => nat_of_ascii c | EmptyString => 0 end)) in E.
  change (nat_of_ascii "N"%char) with 78 in E. unfold str_of_Z in E.
  destruct (pos_digits_head (Z.to_nat (Z.log2 (Z.abs z))) (Z.abs z) EmptyString ltac:(lia)) as (d & u & X & Y).
  destruct (z <? 0)%Z; [cbn in E; discriminate|]. rewrite X in E. cbv beta iota in E. pose proof (digit_val d Y) as V. rewrite E in V. lia.
Qed.
Theorem printed_alike a b : label_str a = label_str b <->
  a = b \/ (a = LNone /\ b = LStr "None") \/ (a = LStr "None" /\ b = LNone) \/
  (exists z, a = LInt z /\ b = LStr (str_of_Z z)) \/ (exists z, a = LStr (str_of_Z z) /\ b = LInt z).
Proof.
  split.
  - destruct a, b; cbn; intros H; auto.
    + exfalso. eapply str_of_Z_not_None. symmetry. exact H.
    + right; left. split; congruence.
    + exfalso. eapply str_of_Z_not_None. exact H.
    + left. f_equal. apply str_of_Z_inj. exact H.
    + right; right; right; left. eexists. split; [reflexivity|]. congruence.
    + right; right; left. split; congruence.
    + right; right; right; right. eexists. split; [|reflexivity]. congruence.
    + left. congruence.
  - intros [->|[[-> ->]|[[-> ->]|[[z [-> ->]]|[z [-> ->]]]]]]; reflexivity.
Qed.

(** Exactly what two detections that differ in unseen points do to an object. *)
From Coq Require Import ZArith Bool Arith String List Lia.
From Verif Require Import Model.Num Model.Base Model.Matching Model.Filter Model.Tracker
  Spec.MatchingSpec Spec.IdentitySpec Proofs.NumLaws Proofs.MatchingProofs Proofs.TrackerFrame Proofs.Identity
  Proofs.Effect Proofs.CallEffect Proofs.CallProps Proofs.CallTheorems Proofs.CallTheorems2 Proofs.CallTheorems3 Proofs.CallTheorems6 Proofs.PointProofs Proofs.ReplayProofs
  Spec.CallSpec Spec.PointSpec Spec.PhasesSpec Spec.FullReplaySpec.
Import ListNotations.
Local Open Scope nat_scope.

Section Law.
Context {N : Num} {FO : filter_ops N} (laws : NumLaws N).
Notation st := (st FO).
Notation tobj := (tobj FO).
Notation frame := (CallSpec.frame FO).

Lemma coordinate_flat d (p : points N) k j : 0 < d -> Forall (fun row => List.length row = d) p -> j < d ->
  coordinate p k j = nth_error (flatten p) (k * d + j).
Proof.
  intros Hd F Hj. unfold coordinate. rewrite (nth_error_flatten d Hd p (k * d + j) F).
  rewrite Nat.div_add_l, (Nat.div_small j d), Nat.add_0_r by lia.
  destruct (nth_error p k); [|reflexivity]. f_equal. rewrite Nat.add_comm, Nat.mod_add, Nat.mod_small by lia. reflexivity.
Qed.

Lemma hit_two (d d' : detection N) r r' p p' (o o1 o1' om om' : tobj) ct wf :
  regular FO wf -> ignores_unmeasured FO wf -> fits wf o ->
  upto_min (obj_update_ct ct (tracker_step o)) om -> upto_min (obj_update_ct ct (tracker_step o)) om' ->
  hit_rel d r p om o1 -> hit_rel d' r' p' om' o1' ->
  agree_above (oc_det_thr (o_conf o)) d d' ->
  let n := oc_num_points (o_conf o) in
  let dim := oc_dim_points (o_conf o) in
  let thr := oc_det_thr (o_conf o) in
  rectangular n dim (d_absolute_points d) -> 0 < dim ->
  estimate_velocity o1 = estimate_velocity o1' /\
  forall k j, k < n -> j < dim ->
    (nth_error (o_once o) k = Some true \/ ~ above thr d ((k * dim + j) mod n) ->
       coordinate (absolute_estimate o1) k j = coordinate (absolute_estimate o1') k j) /\
    (nth_error (o_once o) k <> Some true -> above thr d ((k * dim + j) mod n) ->
       coordinate (absolute_estimate o1) k j = coordinate (d_absolute_points d) k j /\
       coordinate (absolute_estimate o1') k j = coordinate (d_absolute_points d') k j).
Proof.
  intros Rg Hig Hft [m ->] [m' ->] H1 H2 [As Ash Ap] n dim thr [Rn Rd] Hd.
  pose proof (hr_mask_len _ _ _ _ _ H1) as ML. pose proof (hr_once_len _ _ _ _ _ H1) as OL.
  pose proof (hr_conf _ _ _ _ _ H1) as C1. pose proof (hr_conf _ _ _ _ _ H2) as C2.
  pose proof (hr_dim _ _ _ _ _ H1) as D1. pose proof (hr_dim _ _ _ _ _ H2) as D2.
  assert (Eo : over_threshold thr n d' = over_threshold thr n d).
  { unfold over_threshold. rewrite As. reflexivity. }
  assert (X : forall om : tobj, om = set_min_distance m (obj_update_ct ct (tracker_step o)) \/ om = set_min_distance m' (obj_update_ct ct (tracker_step o)) ->
     o_conf om = o_conf o /\ o_once om = o_once o /\ o_filter om = f_predict FO (o_filter o) /\ dim_z om = dim_z o).
  { intros om [-> | ->]; destruct ct; repeat split; reflexivity. }
  destruct (X _ (or_introl eq_refl)) as (X1 & X2 & X3 & X4).
  destruct (X _ (or_intror eq_refl)) as (Y1 & Y2 & Y3 & Y4).
  assert (Ft1 : fits wf (set_min_distance m (obj_update_ct ct (tracker_step o)))).
  { unfold fits. rewrite X3, X4. apply (rg_predict _ Rg). exact Hft. }
  assert (Ft2 : fits wf (set_min_distance m' (obj_update_ct ct (tracker_step o)))).
  { unfold fits. rewrite Y3, Y4. apply (rg_predict _ Rg). exact Hft. }
  pose proof (hit_x wf d r p _ o1 Rg Ft1 H1) as F1. pose proof (hit_x wf d' r' p' _ o1' Rg Ft2 H2) as F2.
  cbv zeta in F1, F2. rewrite X1, X2, X3, X4 in F1. rewrite Y1, Y2, Y3, Y4 in F2. rewrite X1 in *. rewrite X2 in OL. rewrite X4 in D1. rewrite Y4 in D2. rewrite Y1 in C2.
  fold n dim thr in F1, F2, ML, OL. rewrite Eo in F2.
  set (mask := over_threshold thr n d) in *.
  assert (DZ : dim_z o = dim * n) by reflexivity.
  assert (AG : agree (repeat_each dim mask) (flatten (d_absolute_points d)) (flatten (d_absolute_points d'))).
  { apply agree_rows; auto; [congruence|]. intros k Hk. apply Ap. apply (over_true _ n d k ML) in Hk. apply Hk. }
  apply agree_iff in AG as (L1 & L2 & AG).
  assert (LM : List.length (repeat_each dim mask) = dim_z o) by (rewrite repeat_each_length, ML; reflexivity).
  pose proof (Hig (dim_z o) (f_predict FO (o_filter o)) (repeat_each dim mask) _ _ (rg_predict _ Rg _ _ Hft) LM
    (eq_trans L1 LM) (eq_trans L2 LM) AG) as EU. unfold bits in EU. rewrite <- !repeat_each_map in EU. rewrite <- EU in F2.
  set (f := f_update FO (f_predict FO (o_filter o)) (flatten (d_absolute_points d)) (repeat_each dim (map (fun m : bool => if m then n1 else n0) mask))) in *.
  assert (W : wf (dim_z o) f).
  { apply (rg_update _ Rg); [apply (rg_predict _ Rg); exact Hft|exact D1|]. rewrite repeat_each_length, map_length, ML. reflexivity. }
  pose proof (rg_x _ Rg _ _ W) as XL. rewrite DZ in *.
  assert (PL : forall z, List.length (mask_assign (first_detection_mask dim mask (o_once o)) z (firstn (dim * n) (f_x FO f))) = dim * n).
  { intros z. rewrite mask_assign_length, firstn_length. lia. }
  assert (PF : forall z, firstn (dim * n) (reset_first_detected dim (dim * n) mask (o_once o) z (f_x FO f)) =
     mask_assign (first_detection_mask dim mask (o_once o)) z (firstn (dim * n) (f_x FO f))).
  { intros z. unfold reset_first_detected. rewrite firstn_app, PL, Nat.sub_diag, firstn_all2 by (rewrite PL; lia). cbn [firstn]. apply app_nil_r. }
  assert (VF : forall z, skipn (dim * n) (reset_first_detected dim (dim * n) mask (o_once o) z (f_x FO f)) =
     mask_fill (map negb (repeat_each dim (o_once o))) n0 (skipn (dim * n) (f_x FO f))).
  { intros z. unfold reset_first_detected. rewrite skipn_app, PL, Nat.sub_diag, skipn_all2 by (rewrite PL; lia). reflexivity. }
  assert (Hd' : Forall (fun row => List.length row = dim) (d_absolute_points d')).
  { clear -Rd Ash. revert Rd Ash. generalize (d_absolute_points d) (d_absolute_points d'). intros l l' F. revert l'.
    induction F as [|x l Hx F IH]; intros [|y l'] E; try discriminate; constructor; cbn in E; injection E as E1 E2; [congruence|auto]. }
  split.
  - unfold estimate_velocity, dim_z. rewrite C1, C2. fold dim n. rewrite F1, F2, !VF. reflexivity.
  - intros k j Hk Hj. rewrite !absolute_estimate_eq. unfold dim_z. rewrite C1, C2. fold dim n. rewrite F1, F2, !PF.
    destruct (rows_flatten dim Hd n _ (PL (flatten (d_absolute_points d)))) as [[_ Q1] Q2].
    destruct (rows_flatten dim Hd n _ (PL (flatten (d_absolute_points d')))) as [[_ Q3] Q4].
    rewrite !coordinate_flat with (d := dim) by auto. rewrite Q2, Q4.
    assert (Bd : k * dim + j < dim * n) by nia.
    assert (Dv : (k * dim + j) / dim = k) by (rewrite Nat.div_add_l, Nat.div_small by lia; lia).
    assert (Md : (k * dim + j) mod n < n) by (apply Nat.mod_upper_bound; lia).
    rewrite !mask_assign_nth by (rewrite ?first_mask_length, ?firstn_length; try lia; congruence).
    rewrite nth_error_first_mask by (rewrite ?ML; auto; congruence). rewrite ML, Dv.
    destruct (nth_error (o_once o) k) as [b|] eqn:Eb; [|apply nth_error_None in Eb; lia].
    rewrite (nth_error_nth _ _ true Eb).
    pose proof (over_nth thr n d ((k * dim + j) mod n) ML Md) as OV. fold mask in OV.
    destruct (nth ((k * dim + j) mod n) mask false), b; cbn.
    + split; [reflexivity|congruence].
    + split; [|split; reflexivity]. intros [A|A]; [discriminate|]. exfalso. apply A, OV. reflexivity.
    + split; [reflexivity|congruence].
    + split; [reflexivity|]. intros _ A. apply OV in A. discriminate.
Qed.

Theorem unseen_points_law c (s : st) f0 fs f i wf h1 h2 g1 g2 dets1 dets2 p1 p2 ct s1' s2' out1 out2 :
  regular FO wf -> ignores_unmeasured FO wf -> rnd_ok (tc_rnd c) -> tracker_state c s -> tc_reid_distance c = None ->
  video c s (f0 :: fs) -> s_icount (f_pre f0) < i <= s_icount (f_post f0) ->
  (exists n d, rectangular n d (d_absolute_points (s_heap (f_post f0) (last_det (f_post f0) i)))) ->
  In f (f0 :: fs) -> tracked (f_post f) i -> s_gcount (f_post f) <= g1 -> s_gcount (f_post f) <= g2 ->
  let s0 := f_post f in
  update c (Some dets1) p1 ct (meanwhile s0 h1 g1) = (s1', Ret out1) ->
  update c (Some dets2) p2 ct (meanwhile s0 h2 g2) = (s2', Ret out2) ->
  ~ In (last_det s0 i) dets1 -> ~ In (last_det s0 i) dets2 -> In (last_det s1' i) dets1 -> In (last_det s2' i) dets2 ->
  let d1 := s_heap s1' (last_det s1' i) in
  let d2 := s_heap s2' (last_det s2' i) in
  let thr := tc_det_thr c in
  let n := num_points s0 i in
  let dim := dim_points s0 i in
  agree_above thr d1 d2 -> rectangular n dim (d_absolute_points d1) -> 0 < dim ->
  let e1 := absolute_estimate (s_store s1' i) in
  let e2 := absolute_estimate (s_store s2' i) in
  estimate_velocity (s_store s1' i) = estimate_velocity (s_store s2' i) /\
  forall k j, k < n -> j < dim ->
    (detected_before s0 i k \/ ~ above thr d1 ((k * dim + j) mod n) -> coordinate e1 k j = coordinate e2 k j) /\
    (~ detected_before s0 i k -> above thr d1 ((k * dim + j) mod n) ->
       coordinate e1 k j = coordinate (d_absolute_points d1) k j /\ coordinate e2 k j = coordinate (d_absolute_points d2) k j).
Proof.
  intros Rg Hig Hr Ht Nr V Hi RC0 Hf Hti G1 G2 s0 E1 E2 F1 F2 S1 S2 d1 d2 thr n dim AA RC Hd e1 e2.
  pose proof (fits_history laws c s f0 fs i wf Rg Hr Ht Nr V Hi RC0 f Hf Hti) as Hft.
  assert (T0 : tracker_state c s0) by (apply (video_state laws c s (f0 :: fs) Hr Ht V f Hf)).
  assert (T1 : tracker_state c (meanwhile s0 h1 g1)) by (constructor; auto).
  assert (T2 : tracker_state c (meanwhile s0 h2 g2)) by (constructor; auto).
  apply tracker_state_good in T1. apply tracker_state_good in T2.
  assert (Co : oc_det_thr (o_conf (s_store s0 i)) = thr).
  { destruct T1 as [TI CO]. apply (co_thr _ _ (CO i (valid_tracked _ _ TI Hti))). }
  destruct (update_summary laws _ _ _ _ _ _ _ Hr (proj1 T1) E1) as (? & ? & ? & ? & SU1 & _).
  destruct (update_summary laws _ _ _ _ _ _ _ Hr (proj1 T2) E2) as (? & ? & ? & ? & SU2 & _).
  pose proof (su_heap _ _ _ _ _ _ _ _ _ _ SU1) as HA1. pose proof (su_heap _ _ _ _ _ _ _ _ _ _ SU2) as HA2.
  cbn [dets_of] in HA1, HA2.
  destruct (update_fate laws _ _ _ _ _ _ _ i Hr T1 E1 Hti) as [A B D|A B D|r dist om A B D F K0 K1|j om A B R0]; [| | |congruence].
  { unfold last_det in S1, F1. rewrite D in S1. contradiction. }
  { unfold last_det in S1, F1. rewrite (um_last _ _ D), st_last in S1. contradiction. }
  destruct (update_fate laws _ _ _ _ _ _ _ i Hr T2 E2 Hti) as [A' B' D'|A' B' D'|r' dist' om' A' B' D' F' K0' K1'|j om' A' B' R0]; [| | |congruence].
  { unfold last_det in S2, F2. rewrite D' in S2. contradiction. }
  { unfold last_det in S2, F2. rewrite (um_last _ _ D'), st_last in S2. contradiction. }
  destruct F as (o1 & F & Q1). destruct F' as (o1' & F' & Q2).
  assert (L1 : last_det s1' i = r) by (unfold last_det; rewrite Q1; apply (hr_last _ _ _ _ _ F)).
  assert (L2 : last_det s2' i = r') by (unfold last_det; rewrite Q2; apply (hr_last _ _ _ _ _ F')).
  subst d1 d2. rewrite L1 in *. rewrite L2 in *.
  destruct (same_age_scores _ _ r HA1) as (U1 & U2 & _). destruct (same_age_scores _ _ r' HA2) as (U1' & U2' & _).
  cbn [s_store meanwhile] in D, D'.
  set (hd1 := ct_heap ct dets1 (meanwhile s0 h1 g1) r) in *. set (hd2 := ct_heap ct dets2 (meanwhile s0 h2 g2) r') in *.
  assert (Ab : forall k, above thr (s_heap s1' r) k <-> above thr hd1 k) by (intros; apply above_scores; auto).
  destruct (hit_two hd1 hd2 r r' p1 p2 (s_store s0 i) o1 o1' om om' ct wf) as (W1 & W2); auto.
  - rewrite Co. destruct AA as [Q3 Q4 Q5]. split; [congruence|congruence|]. intros k Hk. rewrite <- U2, <- U2'. apply Q5, Ab, Hk.
  - rewrite <- U2. exact RC.
  - assert (V1 : forall o d, estimate_velocity (FO := FO) (set_last_distance d o) = estimate_velocity o) by reflexivity.
    assert (V2 : forall o d, absolute_estimate (FO := FO) (set_last_distance d o) = absolute_estimate o) by reflexivity.
    subst e1 e2. rewrite Q1, Q2, !V1, !V2. split; [exact W1|]. intros k j Hk Hj. destruct (W2 k j Hk Hj) as [W3 W4]. rewrite Co in W3, W4.
    split.
    + intros H. apply W3. destruct H as [H|H]; [left; exact H|right]. intros Y. apply H, Ab, Y.
    + intros H Y. rewrite U2, U2'. apply W4; [exact H|apply Ab, Y].
Qed.
End Law.

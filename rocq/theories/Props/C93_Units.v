(** C93: tracking does not depend on the unit and the origin of the coordinates. *)
From Coq Require Import ZArith QArith Qcanon Reals List Bool Arith Lia Lra.
From Verif Require Import Model.Num Model.Base Model.Matching Model.Filter Model.KalmanMatrix Model.Tracker Model.Distances Model.CameraMotion
  Spec.CallSpec Spec.ExampleVideo Spec.ExamplePoints Spec.LabelSpec Spec.KalmanSpec Spec.PointSpec Spec.UnitSpec
  Proofs.NumLaws Proofs.RingNums Proofs.UnitRun Proofs.UnitFilters Proofs.UnitDistances Proofs.UnitZoom.
Import ListNotations.
Local Open Scope nat_scope.

Section C93.
Context {N : Num} (laws : NumLaws N) (rg : ring_num N) {FO : filter_ops N}.

(** Two trackers are shown the same video in two coordinate systems, x_k and scale_k * x_k + shift_k.  The filter works
    the same in both systems and the second tracker's distance functions and thresholds are those of the first in
    the new units.  Every call of [update] then has the same outcome: the same result (an exception for the same
    reason, or the same objects), the same objects held, with the same ids, ages, counters and matched detections,
    estimates and velocities that are those of the first tracker in the new units, and the same written to the
    detections.  [size] matters only with re-identification. *)
Theorem C93_units dim (u : units N) R dh dr (c c' : tconf FO) size ins ins' h g dummy dummy' :
  0 < dim -> filter_in_units (FO := FO) dim u R -> distance_unit dh -> distance_unit dr -> conf_in_units dim u dh dr c c' ->
  (forall r, det_shaped dim (h r)) -> (forall r, det_sized c size (h r)) ->
  Forall2 (input_in_units dim u) ins ins' -> Forall (fun x => Forall (fun rd => det_sized c size (snd rd)) (in_new x)) ins ->
  Forall2 (outcome_in_units dim u dh dr) (outcomes c (new_tracker h g dummy) ins)
    (outcomes c' (new_tracker (fun r => det_in_units u (h r)) g dummy') ins').
Proof.
  exact (fun Hd HR Uh Ur Hc => tracking_in_units laws rg dim Hd u R HR dh dr Uh Ur c c' Hc size ins ins' h g dummy dummy').
Qed.

(** The filters of the library work the same in all such systems: [NoFilter] and [OptimizedKalmanFilter] .. *)
Theorem C93_filters dim (u : units N) : 0 < dim ->
  (exists R, filter_in_units (FO := nofilter_ops N) dim u R) /\
  (forall p, exists R, filter_in_units (FO := okf_ops p) dim u R).
Proof.
  exact (fun Hd => conj (ex_intro _ _ (no_filter_in_units rg dim Hd u)) (fun p => ex_intro _ _ (optimized_in_units rg dim Hd u p))).
Qed.

(** .. and camera motions that are translations become translations by the scaled vector. *)
Theorem C93_translation dim (u : units N) v : length v = dim ->
  ct_in_units dim u (Some (translation v)) (Some (translation (enum_map (fun k x => nmul (u_scale u k) x) 0 v))).
Proof. exact (translation_units rg dim u v). Qed.
End C93.
Print Assumptions C93_units.
Print Assumptions C93_filters.
Print Assumptions C93_translation.

(** .. and [FilterPyKalmanFilter]. *)
Theorem C93_filterpy inv (p : fp_params) dim (u : units RNum) :
  inverts_diagonal inv -> (0 < fp_R p)%R -> (0 <= fp_Q p)%R -> (0 <= fp_P p)%R -> 0 < dim ->
  exists R, filter_in_units (FO := fp_ops inv p) dim u R.
Proof. exact (fun Hi HR HQ HP Hd => ex_intro _ _ (filterpy_in_units inv p Hi HR HQ HP dim Hd u)). Qed.
Print Assumptions C93_filterpy.

Section C93R.
Context {FO : filter_ops RNum}.
Local Open Scope R_scope.
(** A tracker without re-identification, in exact arithmetic. *)
Definition plain (f : distance FO) (thr : R) (hit_max delay pointwise_max : Z) (det_thr : R) (past_len : nat) : tconf FO :=
  MkTconf f (@DFin RNum thr) hit_max delay pointwise_max (det_thr : RNum) past_len None (@DFin RNum 0) None (fun d => d).

(** Zooming: all axes by the same factor c > 0 (some may be mirrored), any shift.  A tracker with the "frobenius",
    "mean_euclidean" or "mean_manhattan" distance needs the threshold multiplied by c, and nothing else. *)
Theorem C93_zoom dim (u : units RNum) R0 c f thr hm dl pw dt pl ins ins' h g dummy dummy' :
  (0 < dim)%nat -> filter_in_units (FO := FO) dim u R0 -> 0 < c -> (forall k, Rabs (u_scale u k) = c) ->
  In f [frobenius; mean_euclidean; mean_manhattan] ->
  (forall r, det_shaped dim (h r)) -> Forall2 (input_in_units dim u) ins ins' ->
  Forall2 (outcome_in_units dim u (scaled c) (fun d => d))
    (outcomes (plain (ScalarDistance f) thr hm dl pw dt pl) (new_tracker h g dummy) ins)
    (outcomes (plain (ScalarDistance f) (c * thr) hm dl pw dt pl) (new_tracker (fun r => det_in_units u (h r)) g dummy') ins').
Proof. exact (fun Hd HR => zoomed dim Hd u R0 HR hm dl pw dt pl c f thr ins ins' h g dummy dummy'). Qed.

(** [create_keypoints_voting_distance]: the keypoint threshold is multiplied by c, the tracker's stays. *)
Theorem C93_voting dim (u : units RNum) R0 c t s thr hm dl pw dt pl ins ins' h g dummy dummy' :
  (0 < dim)%nat -> filter_in_units (FO := FO) dim u R0 -> 0 < c -> (forall k, Rabs (u_scale u k) = c) ->
  (forall r, det_shaped dim (h r)) -> Forall2 (input_in_units dim u) ins ins' ->
  Forall2 (outcome_in_units dim u (fun d => d) (fun d => d))
    (outcomes (plain (ScalarDistance (keypoints_voting_distance t s)) thr hm dl pw dt pl) (new_tracker h g dummy) ins)
    (outcomes (plain (ScalarDistance (keypoints_voting_distance (c * t) s)) thr hm dl pw dt pl)
      (new_tracker (fun r => det_in_units u (h r)) g dummy') ins').
Proof. exact (fun Hd HR => voted dim Hd u R0 HR hm dl pw dt pl c t s thr ins ins' h g dummy dummy'). Qed.

(** "iou": each axis may be stretched by its own positive factor, nothing else changes. *)
Theorem C93_iou (u : units RNum) R0 thr hm dl pw dt pl ins ins' h g dummy dummy' :
  filter_in_units (FO := FO) 2 u R0 -> 0 < u_scale u 0 -> 0 < u_scale u 1 ->
  (forall r, det_shaped 2 (h r)) -> Forall2 (input_in_units 2 u) ins ins' ->
  Forall2 (outcome_in_units 2 u (fun d => d) (fun d => d))
    (outcomes (plain (VectorizedDistance iou) thr hm dl pw dt pl) (new_tracker h g dummy) ins)
    (outcomes (plain (VectorizedDistance iou) thr hm dl pw dt pl) (new_tracker (fun r => det_in_units u (h r)) g dummy') ins').
Proof.
  exact (fun HR => boxed 2 (Nat.lt_0_succ 1) u R0 HR hm dl pw dt pl thr ins ins' h g dummy dummy' eq_refl).
Qed.

(** [create_normalized_mean_euclidean_distance]: each axis by its own factor, the image size along with it. *)
Theorem C93_normalized (u : units RNum) R0 height width thr hm dl pw dt pl ins ins' h g dummy dummy' :
  filter_in_units (FO := FO) 2 u R0 -> u_scale u 0 <> 0 -> u_scale u 1 <> 0 ->
  (forall r, det_shaped 2 (h r)) -> Forall2 (input_in_units 2 u) ins ins' ->
  Forall2 (outcome_in_units 2 u (fun d => d) (fun d => d))
    (outcomes (plain (ScalarDistance (normalized_mean_euclidean_distance height width)) thr hm dl pw dt pl) (new_tracker h g dummy) ins)
    (outcomes (plain (ScalarDistance (normalized_mean_euclidean_distance (Rabs (u_scale u 1) * height) (Rabs (u_scale u 0) * width)))
       thr hm dl pw dt pl) (new_tracker (fun r => det_in_units u (h r)) g dummy') ins').
Proof.
  exact (fun HR => normalised 2 (Nat.lt_0_succ 1) u R0 HR hm dl pw dt pl height width thr ins ins' h g dummy dummy' eq_refl).
Qed.
End C93R.
Print Assumptions C93_zoom.
Print Assumptions C93_voting.
Print Assumptions C93_iou.
Print Assumptions C93_normalized.

(** Exchanging x and y is another matter.  Three detections of two points each, of which the second point always
    has score 0; the distance function looks at nothing.  At the end the tracker has the second point at (8, 7),
    and at (12, 5) instead of (7, 8) in the exchanged video. *)
Definition exchange (p : points QcNum) : points QcNum := map (@rev _) p.
Definition ex93_anything (c : cview nF) (o : oview nF) : result (dval QcNum) := Ret (DFin (qc 0)).
Definition ex93_exchange_conf : tconf nF :=
  MkTconf (ScalarDistance ex93_anything) (DFin (qc 50)) 3 1 3 (qc (1 # 2)) 2 None (DFin (qc 0)) None (fun x => x).
Theorem C93_exchange_refuted : exists ins ins' : list (input QcNum),
  Forall2 (fun x x' => in_new x' = map (fun rd => (fst rd, new_detection (exchange (d_points (snd rd))) (d_scores (snd rd)) [] LNone)) (in_new x) /\
                       in_dets x' = in_dets x /\ in_period x' = in_period x /\ in_ct x = None /\ in_ct x' = None) ins ins' /\
  exists a a' i, nth_error (outcomes ex93_exchange_conf (pt_start nF) ins) 2 = Some a /\
    nth_error (outcomes ex93_exchange_conf (pt_start nF) ins') 2 = Some a' /\
    snd a = Ret [i] /\ snd a' = Ret [i] /\
    show (estimate (s_store (fst a) i)) = [[1; 2]; [8; 7]]%Q /\ show (estimate (s_store (fst a') i)) = [[2; 1]; [12; 5]]%Q.
Proof.
  exists [pt_at 0 [[0; 0]; [5; 7]]%Q [1; 0]%Q; pt_at 1 [[0; 0]; [6; 9]]%Q [1; 0]%Q; pt_at 2 [[1; 2]; [8; 12]]%Q [1; 0]%Q],
         [pt_at 0 [[0; 0]; [7; 5]]%Q [1; 0]%Q; pt_at 1 [[0; 0]; [9; 6]]%Q [1; 0]%Q; pt_at 2 [[2; 1]; [12; 8]]%Q [1; 0]%Q].
  split; [repeat constructor|]. do 3 eexists. split; [reflexivity|]. split; [reflexivity|].
  split; [vm_compute; reflexivity|]. split; [vm_compute; reflexivity|]. split; vm_compute; reflexivity.
Qed.
Print Assumptions C93_exchange_refuted.

(** ** A concrete case: squared distances, unit 3, origin 5, the default filter, a camera that moves by 2, two things,
    one of them missed once. *)
Definition sq_first (p : points QcNum) : Qc := match p with (x :: _) :: _ => x | _ => Q2Qc 0 end.
Definition sq_distance (c : cview kF) (o : oview kF) : result (dval QcNum) :=
  let z := match c with VDet d => d_absolute_points d | VObj o' => estimate (v_obj o') end in
  let e := (sq_first z - sq_first (estimate (v_obj o)))%Qc in Ret (DFin (N := QcNum) (e * e)%Qc).
Definition nine (d : dval QcNum) : dval QcNum := match d with DFin x => DFin (N := QcNum) (Q2Qc 9 * x)%Qc | v => v end.
Definition sq_conf (thr : Q) : tconf kF :=
  MkTconf (ScalarDistance sq_distance) (DFin (qc thr)) 3 1 3 (qc (1 # 2)) 2 None (DFin (qc 0)) None (fun x => x).
Definition ex93_units : units QcNum := MkUnits (N := QcNum) (fun _ => Q2Qc 3) (fun _ => Q2Qc 5).
Definition ex93_det (x : Q) : detection QcNum := pt_det [[x]] [1%Q].
Definition ex93_video (f : Q -> detection QcNum) (move : Q) : list (input QcNum) :=
  [MkInput [(1, f 0%Q); (2, f 100%Q)] [1; 2] 1%Z None; MkInput [(3, f 1%Q); (4, f 102%Q)] [4; 3] 1%Z None;
   MkInput [(5, f 4%Q)] [5] 1%Z (Some (translation [qc move])); MkInput [(6, f 5%Q); (7, f 109%Q)] [6; 7] 1%Z (Some (translation [qc move]))].
Definition ex93_new : list (input QcNum) := ex93_video (fun x => det_in_units ex93_units (ex93_det x)) 6.

Lemma nine_order (x y : Qc) : @nltb QcNum (Q2Qc 9 * x)%Qc (Q2Qc 9 * y)%Qc = @nltb QcNum x y.
Proof.
  assert (E : forall a b : Qc, @nltb QcNum a b = true <-> (a < b)%Qc).
  { intros a b. cbn. unfold Qltb, Qclt. rewrite negb_true_iff. rewrite <- not_true_iff_false, Qle_bool_iff. split; [apply Qnot_le_lt|apply Qlt_not_le]. }
  assert (P : (0 < Q2Qc 9)%Qc) by reflexivity.
  destruct (@nltb QcNum x y) eqn:B.
  - apply E. apply E in B. rewrite (Qcmult_comm _ x), (Qcmult_comm _ y). apply Qcmult_lt_compat_r; auto.
  - apply not_true_iff_false. intros A. apply E in A. apply not_true_iff_false in B. apply B, E.
    destruct (Qclt_le_dec x y) as [L|L]; auto. exfalso. apply (Qcmult_le_compat_r _ _ (Q2Qc 9)) in L; [|discriminate].
    rewrite !(Qcmult_comm _ (Q2Qc 9)) in L. apply (Qclt_not_le _ _ A), L.
Qed.
Example ex93_unit : distance_unit nine.
Proof.
  split.
  - intros [| |x|] [| |y|]; cbn [nine dltb]; auto. apply nine_order.
  - intros [| |x|]; reflexivity.
  - intros [| |x|]; cbn [nine dtruth]; auto. f_equal. cbn [neqb QcNum n0]. apply eq_true_iff_eq. rewrite !Qeq_bool_iff. split; intros A.
    + apply (Qc_is_canon _ (Q2Qc 0)) in A. apply Qcmult_integral in A. destruct A as [A|A]; [discriminate|]. rewrite A. reflexivity.
    + apply (Qc_is_canon _ (Q2Qc 0)) in A. rewrite A. reflexivity.
  - reflexivity.
Qed.
Lemma sq_units (p q : points QcNum) : shaped 1 p -> shaped 1 q ->
  (sq_first (in_units ex93_units p) - sq_first (in_units ex93_units q) = Q2Qc 3 * (sq_first p - sq_first q))%Qc.
Proof.
  assert (G : forall p : points QcNum, shaped 1 p -> sq_first (in_units ex93_units p) = (Q2Qc 3 * sq_first p + Q2Qc 5)%Qc).
  { intros [|[|x r] p0] [A B]; [contradiction|inversion B; discriminate|reflexivity]. }
  intros Hp Hq. rewrite (G p Hp), (G q Hq). ring.
Qed.
Example ex93_conf : conf_in_units 1 ex93_units nine nine (sq_conf 50) (sq_conf 450).
Proof.
  split; cbn [tc_distance tc_reid_distance tc_threshold tc_reid_threshold tc_rnd sq_conf]; auto.
  - assert (H : forall p q, shaped 1 p -> shaped 1 q -> let e := (sq_first (in_units ex93_units p) - sq_first (in_units ex93_units q))%Qc in
       Ret (DFin (N := QcNum) (e * e)%Qc) = result_map nine (let e := (sq_first p - sq_first q)%Qc in Ret (DFin (N := QcNum) (e * e)%Qc))).
    { intros p q Sp Sq. cbn [result_map nine]. do 2 f_equal. rewrite sq_units by auto. replace (Q2Qc 9) with (Q2Qc 3 * Q2Qc 3)%Qc by reflexivity. ring. }
    intros [d|v] [d'|v'] o o' Hc Ho; cbn in Hc; try contradiction; unfold sq_distance.
    + destruct Hc as [-> (_ & S1 & _)]. rewrite (ou_estimate _ _ _ _ _ _ (vu_object _ _ _ _ _ _ Ho)). apply H; auto. apply (ou_shaped _ _ _ _ _ _ (vu_object _ _ _ _ _ _ Ho)).
    + rewrite (ou_estimate _ _ _ _ _ _ (vu_object _ _ _ _ _ _ Ho)), (ou_estimate _ _ _ _ _ _ (vu_object _ _ _ _ _ _ Hc)).
      apply H; [apply (ou_shaped _ _ _ _ _ _ (vu_object _ _ _ _ _ _ Hc))|apply (ou_shaped _ _ _ _ _ _ (vu_object _ _ _ _ _ _ Ho))].
  - repeat split.
  - repeat split.
Qed.
Lemma ex93_shaped x : det_shaped 1 (ex93_det x).
Proof. repeat split; cbn; try discriminate; repeat constructor. Qed.
Example ex93_inputs : Forall2 (input_in_units 1 ex93_units) (ex93_video ex93_det 2) ex93_new.
Proof.
  assert (T : ct_in_units 1 ex93_units (Some (translation [qc 2])) (Some (translation [qc 6]))).
  { replace (qc 6) with (Q2Qc 3 * Q2Qc 2)%Qc by (apply Qc_is_canon; reflexivity). exact (C93_translation QcNum_ring 1 ex93_units [qc 2] eq_refl). }
  assert (G : forall new ds T T', ct_in_units 1 ex93_units T T' ->
    input_in_units 1 ex93_units (MkInput (map (fun rx => (fst rx, ex93_det (snd rx))) new) ds 1%Z T)
      (MkInput (map (fun rx => (fst rx, det_in_units ex93_units (ex93_det (snd rx)))) new) ds 1%Z T')).
  { intros new ds T0 T' Hct. split; [cbn; rewrite map_map; reflexivity|]. split; [|auto]. cbn. apply Forall_map, Forall_forall. intros rx _. apply ex93_shaped. }
  constructor; [exact (G [(1, 0%Q); (2, 100%Q)] [1; 2] None None Logic.I)|].
  constructor; [exact (G [(3, 1%Q); (4, 102%Q)] [4; 3] None None Logic.I)|].
  constructor; [exact (G [(5, 4%Q)] [5] _ _ T)|].
  constructor; [exact (G [(6, 5%Q); (7, 109%Q)] [6; 7] _ _ T)|]. constructor.
Qed.
Example ex93 : Forall2 (outcome_in_units 1 ex93_units nine nine)
  (outcomes (sq_conf 50) (new_tracker (fun _ => ex93_det 0) 0 (pt_dummy (FO := kF))) (ex93_video ex93_det 2))
  (outcomes (sq_conf 450) (new_tracker (fun _ => det_in_units ex93_units (ex93_det 0)) 0 (pt_dummy (FO := kF))) ex93_new).
Proof.
  destruct (proj2 (C93_filters QcNum_ring 1 ex93_units (le_n 1)) okf_default_params) as [R HR].
  apply (C93_units QcNum_laws QcNum_ring 1 ex93_units R nine nine (sq_conf 50) (sq_conf 450) (fun _ => 0) _ _ (fun _ => ex93_det 0)); auto.
  - exact ex93_unit.
  - exact ex93_unit.
  - exact ex93_conf.
  - intros r. apply ex93_shaped.
  - intros r X. contradiction.
  - exact ex93_inputs.
  - apply Forall_forall. intros x _. apply Forall_forall. intros rd _ X. contradiction.
Qed.
(** Both objects are returned from the second call on, in both runs. *)
Example ex93_outcome :
  map snd (outcomes (sq_conf 50) (new_tracker (fun _ => ex93_det 0) 0 (pt_dummy (FO := kF))) (ex93_video ex93_det 2)) =
    [Ret []; Ret [1; 2]; Ret [1; 2]; Ret [1; 2]] /\
  map snd (outcomes (sq_conf 450) (new_tracker (fun _ => det_in_units ex93_units (ex93_det 0)) 0 (pt_dummy (FO := kF))) ex93_new) =
    [Ret []; Ret [1; 2]; Ret [1; 2]; Ret [1; 2]].
Proof. split; vm_compute; reflexivity. Qed.

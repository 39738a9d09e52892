(** C111: without scores, tracking does not depend on the order of points and axes. *)
From Coq Require Import ZArith QArith Qcanon Reals List Bool Arith Lia Permutation.
From Verif Require Import Model.Num Model.Base Model.Matching Model.Filter Model.KalmanMatrix Model.Tracker Model.Distances Model.CameraMotion
  Spec.CallSpec Spec.ExampleVideo Spec.ExamplePoints Spec.LabelSpec Spec.KalmanSpec Spec.PointSpec Spec.UnitSpec Spec.CoordSpec
  Proofs.RingNums Proofs.CoordLists Proofs.CoordRun Proofs.CoordFilters Proofs.CoordDistances.
Import ListNotations.
Local Open Scope nat_scope.

Section C111.
Context {N : Num} {FO : filter_ops N}.

(** Two trackers are shown the same video, the second with the n * dim coordinates of every detection in another
    order (the same order for all).  No detection has scores.  The filter treats all coordinates alike and the second
    tracker's distance functions give for the new order what those of the first give for the old one; all other
    arguments are the same.  Every call of [update] then has the same outcome: the same result (an exception for the same reason, or the same
    objects), the same objects held, with the same ids, ages, counters, distances and matched detections, and estimates and
    velocities that are those of the first tracker in the new order. *)
Theorem C111_order dim n order R (c c' : tconf FO) ins ins' h g dummy dummy' :
  0 < dim -> 0 < n -> is_order dim n order -> filter_in_order (FO := FO) dim n order R -> conf_in_order dim n order c c' ->
  (forall r, det_unscored dim n (h r)) -> Forall2 (input_in_order dim n order) ins ins' ->
  Forall2 (outcome_in_order dim n order) (outcomes c (new_tracker h g dummy) ins)
    (outcomes c' (new_tracker (fun r => det_in_order dim order (h r)) g dummy') ins').
Proof.
  exact (fun Hd Hn Ho HR Hc => tracking_in_order dim n Hd Hn order Ho R HR c c' Hc ins ins' h g dummy dummy').
Qed.

(** Such orders: the points in the order [sigma] and the axes in the order [tau]. *)
Theorem C111_points_and_axes dim n sigma tau : 0 < dim -> Permutation sigma (seq 0 n) -> Permutation tau (seq 0 dim) ->
  is_order dim n (pa_order dim sigma tau) /\
  forall p : points N, sized dim n p -> in_order dim (pa_order dim sigma tau) p = points_and_axes sigma tau p.
Proof.
  exact (fun Hd Hs Ht => conj (pa_is_order dim n Hd sigma tau Hs Ht) (fun p => pa_in_order dim n Hd sigma tau p Hs Ht)).
Qed.

(** Camera motions that are translations become translations by the vector with its axes in the new order. *)
Theorem C111_translation dim n sigma tau (v : list N) : 0 < dim -> Permutation sigma (seq 0 n) -> Permutation tau (seq 0 dim) -> length v = dim ->
  ct_in_order dim n (pa_order dim sigma tau) (Some (translation v)) (Some (translation (picks n0 tau v))).
Proof. exact (fun Hd Hs Ht => translation_order dim n Hd sigma tau Hs Ht v). Qed.

(** The filters of the library treat all coordinates alike: [NoFilter] and [OptimizedKalmanFilter] .. *)
Theorem C111_filters dim n order : 0 < dim -> is_order dim n order ->
  (exists R, filter_in_order (N := N) (FO := nofilter_ops N) dim n order R) /\
  (forall p, exists R, filter_in_order (N := N) (FO := okf_ops p) dim n order R).
Proof.
  exact (fun Hd Ho => conj (ex_intro _ _ (no_filter_in_order dim n Hd order Ho)) (fun p => ex_intro _ _ (optimized_in_order dim n Hd order Ho p))).
Qed.
End C111.
Print Assumptions C111_order.
Print Assumptions C111_points_and_axes.
Print Assumptions C111_translation.
Print Assumptions C111_filters.

(** .. and [FilterPyKalmanFilter]. *)
Theorem C111_filterpy inv (p : fp_params) dim n order :
  inverts_diagonal inv -> (0 < fp_R p)%R -> (0 <= fp_Q p)%R -> (0 <= fp_P p)%R -> 0 < dim -> is_order dim n order ->
  exists R, filter_in_order (N := RNum) (FO := fp_ops inv p) dim n order R.
Proof. exact (fun Hi HR HQ HP Hd Ho => ex_intro _ _ (filterpy_in_order inv p Hi HR HQ HP dim n Hd order Ho)). Qed.
Print Assumptions C111_filterpy.

Section C111R.
Context {FO : filter_ops RNum}.
Local Open Scope R_scope.
(** A tracker without re-identification, in exact arithmetic. *)
Definition plain111 (f : distance FO) (thr : R) (hit_max delay pointwise_max : Z) (det_thr : R) (past_len : nat) : tconf FO :=
  MkTconf f (@DFin RNum thr) hit_max delay pointwise_max (det_thr : RNum) past_len None (@DFin RNum 0) None (fun d => d).

(** "frobenius" and "mean_manhattan": any order of the coordinates. *)
Theorem C111_frobenius_manhattan dim n order R0 f thr hm dl pw dt pl ins ins' h g dummy dummy' :
  (0 < dim)%nat -> (0 < n)%nat -> is_order dim n order -> filter_in_order (FO := FO) dim n order R0 ->
  In f [frobenius; mean_manhattan] -> (forall r, det_unscored dim n (h r)) -> Forall2 (input_in_order dim n order) ins ins' ->
  Forall2 (outcome_in_order dim n order) (outcomes (plain111 (ScalarDistance f) thr hm dl pw dt pl) (new_tracker h g dummy) ins)
    (outcomes (plain111 (ScalarDistance f) thr hm dl pw dt pl) (new_tracker (fun r => det_in_order dim order (h r)) g dummy') ins').
Proof. exact (any_order hm dl pw dt pl dim n order R0 f thr ins ins' h g dummy dummy'). Qed.

(** "mean_euclidean": any order of the points and any order of the axes. *)
Theorem C111_mean_euclidean dim n sigma tau R0 thr hm dl pw dt pl ins ins' h g dummy dummy' :
  (0 < dim)%nat -> (0 < n)%nat -> Permutation sigma (seq 0 n) -> Permutation tau (seq 0 dim) ->
  filter_in_order (FO := FO) dim n (pa_order dim sigma tau) R0 ->
  (forall r, det_unscored dim n (h r)) -> Forall2 (input_in_order dim n (pa_order dim sigma tau)) ins ins' ->
  Forall2 (outcome_in_order dim n (pa_order dim sigma tau))
    (outcomes (plain111 (ScalarDistance mean_euclidean) thr hm dl pw dt pl) (new_tracker h g dummy) ins)
    (outcomes (plain111 (ScalarDistance mean_euclidean) thr hm dl pw dt pl) (new_tracker (fun r => det_in_order dim (pa_order dim sigma tau) (h r)) g dummy') ins').
Proof. exact (points_axes_order hm dl pw dt pl dim n sigma tau R0 thr ins ins' h g dummy dummy'). Qed.

(** "iou": x and y of both corners may be exchanged. *)
Theorem C111_iou R0 thr hm dl pw dt pl ins ins' h g dummy dummy' :
  filter_in_order (FO := FO) 2 2 (pa_order 2 [0; 1]%nat [1; 0]%nat) R0 ->
  (forall r, det_unscored 2 2 (h r)) -> Forall2 (input_in_order 2 2 (pa_order 2 [0; 1]%nat [1; 0]%nat)) ins ins' ->
  Forall2 (outcome_in_order 2 2 (pa_order 2 [0; 1]%nat [1; 0]%nat))
    (outcomes (plain111 (VectorizedDistance iou) thr hm dl pw dt pl) (new_tracker h g dummy) ins)
    (outcomes (plain111 (VectorizedDistance iou) thr hm dl pw dt pl) (new_tracker (fun r => det_in_order 2 (pa_order 2 [0; 1]%nat [1; 0]%nat) (h r)) g dummy') ins').
Proof. exact (boxes_order hm dl pw dt pl R0 thr ins ins' h g dummy dummy'). Qed.
End C111R.
Print Assumptions C111_frobenius_manhattan.
Print Assumptions C111_mean_euclidean.
Print Assumptions C111_iou.

(** With scores the order of points matters.  Three detections of two points each, of which one point always has score
    0; the distance function looks at nothing.  The tracker ends with that point at (8, 7) if it is the second
    one, and at (5, 12) if it is the first one. *)
Definition ex111_anything (c : cview nF) (o : oview nF) : result (dval QcNum) := Ret (DFin (qc 0)).
Definition ex111_scored_conf : tconf nF :=
  MkTconf (ScalarDistance ex111_anything) (DFin (qc 50)) 3 1 3 (qc (1 # 2)) 2 None (DFin (qc 0)) None (fun x => x).
Theorem C111_scores_refuted : exists ins ins' : list (input QcNum),
  Forall2 (fun x x' => in_new x' = map (fun rd => (fst rd, new_detection (rev (d_points (snd rd))) (option_map (@rev _) (d_scores (snd rd))) [] LNone)) (in_new x) /\
                       in_dets x' = in_dets x /\ in_period x' = in_period x /\ in_ct x = None /\ in_ct x' = None) ins ins' /\
  exists a a' i, nth_error (outcomes ex111_scored_conf (pt_start nF) ins) 2 = Some a /\
    nth_error (outcomes ex111_scored_conf (pt_start nF) ins') 2 = Some a' /\
    snd a = Ret [i] /\ snd a' = Ret [i] /\
    show (estimate (s_store (fst a) i)) = [[1; 2]; [8; 7]]%Q /\ show (estimate (s_store (fst a') i)) = [[5; 12]; [1; 2]]%Q.
Proof.
  exists [pt_at 0 [[0; 0]; [5; 7]]%Q [1; 0]%Q; pt_at 1 [[0; 0]; [6; 9]]%Q [1; 0]%Q; pt_at 2 [[1; 2]; [8; 12]]%Q [1; 0]%Q],
         [pt_at 0 [[5; 7]; [0; 0]]%Q [0; 1]%Q; pt_at 1 [[6; 9]; [0; 0]]%Q [0; 1]%Q; pt_at 2 [[8; 12]; [1; 2]]%Q [0; 1]%Q].
  split; [repeat constructor|]. do 3 eexists. split; [reflexivity|]. split; [reflexivity|].
  split; [vm_compute; reflexivity|]. split; [vm_compute; reflexivity|]. split; vm_compute; reflexivity.
Qed.
Print Assumptions C111_scores_refuted.

(** ** A concrete case: two points on a line, squared distances, the default filter, a camera that moves by 2, two things,
    one of them missed once; the points exchanged. *)
Definition ex111_order : list nat := pa_order 1 [1; 0] [0].
Definition ex111_sq (p q : points QcNum) : Qc :=
  match p, q with [[a]; [b]], [[x]; [y]] => ((a - x) * (a - x) + (b - y) * (b - y))%Qc | _, _ => Q2Qc 0 end.
Definition ex111_distance (c : cview kF) (o : oview kF) : result (dval QcNum) :=
  let z := match c with VDet d => d_absolute_points d | VObj o' => estimate (v_obj o') end in Ret (DFin (N := QcNum) (ex111_sq z (estimate (v_obj o)))).
Definition ex111_conf : tconf kF :=
  MkTconf (ScalarDistance ex111_distance) (DFin (qc 50)) 3 1 3 (qc (1 # 2)) 2 None (DFin (qc 0)) None (fun x => x).
Definition ex111_det (x : Q) : detection QcNum := new_detection [[qc x]; [qc (x + 3)]] None [] LNone.
Definition ex111_video (f : Q -> detection QcNum) : list (input QcNum) :=
  [MkInput [(1, f 0%Q); (2, f 100%Q)] [1; 2] 1%Z None; MkInput [(3, f 1%Q); (4, f 102%Q)] [4; 3] 1%Z None;
   MkInput [(5, f 4%Q)] [5] 1%Z (Some (translation [qc 2])); MkInput [(6, f 5%Q); (7, f 109%Q)] [6; 7] 1%Z (Some (translation [qc 2]))].
Definition ex111_new : list (input QcNum) := ex111_video (fun x => det_in_order 1 ex111_order (ex111_det x)).

Lemma ex111_pair (p : points QcNum) : sized 1 2 p -> exists a b, p = [[a]; [b]] /\ in_order 1 ex111_order p = [[b]; [a]].
Proof.
  intros [L F]. destruct p as [|r [|q [|]]]; try discriminate. pose proof (Forall_inv F) as Hr. pose proof (Forall_inv (Forall_inv_tail F)) as Hq.
  destruct r as [|a [|]]; try discriminate. destruct q as [|b [|]]; try discriminate. exists a, b. split; reflexivity.
Qed.
Example ex111_same : conf_in_order 1 2 ex111_order ex111_conf ex111_conf.
Proof.
  split; cbn [tc_distance tc_reid_distance ex111_conf]; auto; [|repeat split].
  assert (H : forall p q, sized 1 2 p -> sized 1 2 q -> ex111_sq (in_order 1 ex111_order p) (in_order 1 ex111_order q) = ex111_sq p q).
  { intros p q Hp Hq. destruct (ex111_pair p Hp) as (a & b & -> & ->). destruct (ex111_pair q Hq) as (x & y & -> & ->). cbn. ring. }
  intros [d|v] [d'|v'] o o' Hc Hv; cbn in Hc; try contradiction; unfold ex111_distance; do 2 f_equal.
  - destruct Hc as [-> (_ & S1 & _)]. rewrite (oo_estimate _ _ _ _ _ (vo_object _ _ _ _ _ Hv)). apply H; auto. apply (oo_sized _ _ _ _ _ (vo_object _ _ _ _ _ Hv)).
  - rewrite (oo_estimate _ _ _ _ _ (vo_object _ _ _ _ _ Hv)), (oo_estimate _ _ _ _ _ (vo_object _ _ _ _ _ Hc)).
    apply H; [apply (oo_sized _ _ _ _ _ (vo_object _ _ _ _ _ Hc))|apply (oo_sized _ _ _ _ _ (vo_object _ _ _ _ _ Hv))].
Qed.
Lemma ex111_unscored x : det_unscored 1 2 (ex111_det x).
Proof. repeat split; cbn; repeat constructor. Qed.
Lemma ex111_swap : Permutation [1; 0] (seq 0 2).
Proof. apply perm_swap. Qed.
Example ex111_inputs : Forall2 (input_in_order 1 2 ex111_order) (ex111_video ex111_det) ex111_new.
Proof.
  assert (T : ct_in_order 1 2 ex111_order (Some (translation [qc 2])) (Some (translation [qc 2]))).
  { exact (C111_translation 1 2 [1; 0] [0] [qc 2] (le_n 1) ex111_swap (Permutation_refl _) eq_refl). }
  assert (G : forall new ds T T', ct_in_order 1 2 ex111_order T T' ->
    input_in_order 1 2 ex111_order (MkInput (map (fun rx => (fst rx, ex111_det (snd rx))) new) ds 1%Z T)
      (MkInput (map (fun rx => (fst rx, det_in_order 1 ex111_order (ex111_det (snd rx)))) new) ds 1%Z T')).
  { intros new ds T0 T' Hct. split; [cbn; rewrite map_map; reflexivity|]. split; [|auto]. cbn. apply Forall_map, Forall_forall. intros rx _. apply ex111_unscored. }
  constructor; [exact (G [(1, 0%Q); (2, 100%Q)] [1; 2] None None Logic.I)|].
  constructor; [exact (G [(3, 1%Q); (4, 102%Q)] [4; 3] None None Logic.I)|].
  constructor; [exact (G [(5, 4%Q)] [5] _ _ T)|].
  constructor; [exact (G [(6, 5%Q); (7, 109%Q)] [6; 7] _ _ T)|]. constructor.
Qed.
Example ex111 : Forall2 (outcome_in_order 1 2 ex111_order)
  (outcomes ex111_conf (new_tracker (fun _ => ex111_det 0) 0 (pt_dummy (FO := kF))) (ex111_video ex111_det))
  (outcomes ex111_conf (new_tracker (fun _ => det_in_order 1 ex111_order (ex111_det 0)) 0 (pt_dummy (FO := kF))) ex111_new).
Proof.
  pose proof (proj1 (C111_points_and_axes (N := QcNum) 1 2 [1; 0] [0] (le_n 1) ex111_swap (Permutation_refl _))) as Ho.
  destruct (proj2 (C111_filters (N := QcNum) 1 2 ex111_order (le_n 1) Ho) okf_default_params) as [R HR].
  apply (C111_order 1 2 ex111_order R ex111_conf ex111_conf _ _ (fun _ => ex111_det 0)); auto.
  - exact ex111_same.
  - intros r. apply ex111_unscored.
  - exact ex111_inputs.
Qed.
(** Both objects are returned from the second call on, in both runs. *)
Example ex111_outcome :
  map snd (outcomes ex111_conf (new_tracker (fun _ => ex111_det 0) 0 (pt_dummy (FO := kF))) (ex111_video ex111_det)) =
    [Ret []; Ret [1; 2]; Ret [1; 2]; Ret [1; 2]] /\
  map snd (outcomes ex111_conf (new_tracker (fun _ => det_in_order 1 ex111_order (ex111_det 0)) 0 (pt_dummy (FO := kF))) ex111_new) =
    [Ret []; Ret [1; 2]; Ret [1; 2]; Ret [1; 2]].
Proof. split; vm_compute; reflexivity. Qed.

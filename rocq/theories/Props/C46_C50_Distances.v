(** C46-C50: the built-in distances. *)
From Coq Require Import Reals Lra Lia Bool Arith String.
From Coq Require Import List.
From Verif Require Import Model.Num Model.Base Model.Filter Model.Tracker Model.Distances
  Spec.BuiltinSpec Proofs.BuiltinProofs Proofs.BuiltinProofs2.
Import ListNotations.
Local Open Scope R_scope.

(** C46.  Each of the three functions looks only at detection.points and the estimate of the object, computes the
    documented formula, and is a metric on arrays of every shape.  (The mean of no points at all is NaN.) *)
Theorem C46_frobenius (FO : filter_ops RNum) : exists f,
  (forall (det : detection RNum) (o : oview FO), frobenius (VDet det) o = f (d_points det) (estimate (v_obj o))) /\
  (forall n d, metric n d f) /\
  (forall n d a b, shaped n d a -> shaped n d b ->
     f a b = Ret (@DFin RNum (sqrt (total n (fun i => total d (fun j => (entry a i j - entry b i j) ^ 2)))))) /\
  (forall a b, map (@length R) a <> map (@length R) b -> f a b = Raise EValueError).
Proof.
  exact (ex_intro _ frobenius_arrays (conj (fun _ _ => eq_refl) (conj frobenius_metric (conj frobenius_formula
    (fun a b H => f_equal (fun r => match r with Raise e => Raise e | Ret m => _ end) (shapes_differ a b H)))))).
Qed.
Print Assumptions C46_frobenius.

Theorem C46_mean_euclidean (FO : filter_ops RNum) : exists f,
  (forall (det : detection RNum) (o : oview FO), mean_euclidean (VDet det) o = f (d_points det) (estimate (v_obj o))) /\
  (forall n d, (0 < n)%nat -> metric n d f) /\
  (forall n d a b, (0 < n)%nat -> shaped n d a -> shaped n d b ->
     f a b = Ret (@DFin RNum (total n (point_euclidean d a b) / INR n))) /\
  f [] [] = Ret DNaN /\
  (forall a b, map (@length R) a <> map (@length R) b -> f a b = Raise EValueError).
Proof.
  exact (ex_intro _ mean_euclidean_arrays (conj (fun _ _ => eq_refl) (conj mean_euclidean_metric (conj mean_euclidean_formula
    (conj eq_refl (fun a b H => f_equal (fun r => match r with Raise e => Raise e | Ret m => _ end) (shapes_differ a b H))))))).
Qed.
Print Assumptions C46_mean_euclidean.

Theorem C46_mean_manhattan (FO : filter_ops RNum) : exists f,
  (forall (det : detection RNum) (o : oview FO), mean_manhattan (VDet det) o = f (d_points det) (estimate (v_obj o))) /\
  (forall n d, (0 < n)%nat -> metric n d f) /\
  (forall n d a b, (0 < n)%nat -> shaped n d a -> shaped n d b ->
     f a b = Ret (@DFin RNum (total n (point_manhattan d a b) / INR n))) /\
  f [] [] = Ret DNaN /\
  (forall a b, map (@length R) a <> map (@length R) b -> f a b = Raise EValueError).
Proof.
  exact (ex_intro _ mean_manhattan_arrays (conj (fun _ _ => eq_refl) (conj mean_manhattan_metric (conj mean_manhattan_formula
    (conj eq_refl (fun a b H => f_equal (fun r => match r with Raise e => Raise e | Ret m => _ end) (shapes_differ a b H))))))).
Qed.
Print Assumptions C46_mean_manhattan.

(** They cannot serve as reid_distance_function: comparing two objects raises. *)
Theorem C46_not_for_objects (FO : filter_ops RNum) (v o : oview FO) :
  frobenius (VObj v) o = Raise EAttributeError /\ mean_euclidean (VObj v) o = Raise EAttributeError /\
  mean_manhattan (VObj v) o = Raise EAttributeError.
Proof. exact (conj eq_refl (conj eq_refl eq_refl)). Qed.
Print Assumptions C46_not_for_objects.

Example C46_case : shaped 2 2 [[0; 0]; [1; 1]] /\ shaped 2 2 [[3; 4]; [1; 3]] /\
  mean_euclidean_arrays [[0; 0]; [1; 1]] [[3; 4]; [1; 3]] = Ret (@DFin RNum (7 / 2)) /\
  mean_manhattan_arrays [[0; 0]; [1; 1]] [[3; 4]; [1; 3]] = Ret (@DFin RNum (9 / 2)).
Proof.
  assert (A : shaped 2 2 [[0; 0]; [1; 1]]) by (split; [reflexivity|repeat constructor]).
  assert (B : shaped 2 2 [[3; 4]; [1; 3]]) by (split; [reflexivity|repeat constructor]).
  split; [exact A|]. split; [exact B|]. split.
  - rewrite (mean_euclidean_formula 2 2 _ _ ltac:(lia) A B). do 2 f_equal. unfold point_euclidean, entry. cbn [total nth].
    replace (0 + (0 - 3) ^ 2 + (0 - 4) ^ 2) with (5 * 5) by ring. replace (0 + (1 - 1) ^ 2 + (1 - 3) ^ 2) with (2 * 2) by ring.
    rewrite !sqrt_square by lra. cbn [INR]. lra.
  - rewrite (mean_manhattan_formula 2 2 _ _ ltac:(lia) A B). do 2 f_equal. unfold point_manhattan, entry. cbn [total nth INR].
    unfold Rabs. repeat destruct Rcase_abs; lra.
Qed.

(** C47.  iou of two stacks of well formed boxes is computed pair by pair ([iou_is c o x]: the distance of box [c]
    and box [o] is the number [x]). *)
Theorem C47_pairwise cs os : Forall well_formed cs -> Forall well_formed os ->
  exists M, @iou RNum cs os = Ret M /\ length M = length cs /\
  forall i j c o, nth_error cs i = Some c -> nth_error os j = Some o ->
  exists row x, nth_error M i = Some row /\ length row = length os /\ nth_error row j = Some (@DFin RNum x) /\
                @iou RNum [c] [o] = Ret [[@DFin RNum x]].
Proof. exact (iou_matrix cs os). Qed.
Print Assumptions C47_pairwise.

Theorem C47_iou c o : well_formed c -> well_formed o -> exists x,
  @iou RNum [c] [o] = Ret [[@DFin RNum x]] /\ @iou RNum [o] [c] = Ret [[@DFin RNum x]] /\
  0 <= x <= 1 /\ (x = 0 <-> c = o) /\ (x = 1 <-> ~ exists p q, interior c p q /\ interior o p q).
Proof. exact (iou_behaved c o). Qed.
Print Assumptions C47_iou.

(** The value for boxes whose intersection is the box [i]. *)
Theorem C47_value c o i : well_formed c -> well_formed o -> well_formed i ->
  (forall x y, interior i x y <-> interior c x y /\ interior o x y) ->
  @iou RNum [c] [o] = Ret [[@DFin RNum (1 - area i / (area c + area o - area i))]].
Proof. exact (iou_overlapping c o i). Qed.
Print Assumptions C47_value.

(** Without well-formedness the claim fails: a box of size zero has distance NaN to itself. *)
Theorem C47_degenerate x y : @iou RNum [box x y x y] [box x y x y] = Ret [[DNaN]].
Proof. exact (iou_degenerate x y). Qed.
Print Assumptions C47_degenerate.

Example C47_case : @iou RNum [box 0 0 2 2] [box 1 1 3 3] = Ret [[@DFin RNum (6 / 7)]].
Proof.
  rewrite (C47_value (box 0 0 2 2) (box 1 1 3 3) (box 1 1 2 2)).
  - do 4 f_equal. unfold area. cbn. field.
  - exists 0, 0, 2, 2. repeat split; lra.
  - exists 1, 1, 3, 3. repeat split; lra.
  - exists 1, 1, 2, 2. repeat split; lra.
  - intros x y. unfold interior. cbn. lra.
Qed.

(** C48. *)
Theorem C48_keypoints_voting (FO : filter_ops RNum) (dist_thr score_thr : R) n d (det : detection RNum) (o : oview FO) ds ls :
  shaped n d (d_points det) -> shaped n d (estimate (v_obj o)) ->
  d_scores det = Some ds -> d_scores (v_last o) = Some ls -> length ds = n -> length ls = n ->
  exists k x, how_many n (keypoint_match d dist_thr score_thr (d_points det) (estimate (v_obj o)) ds ls) k /\
  keypoints_voting_distance dist_thr score_thr (VDet det) o = Ret (@DFin RNum x) /\
  x = 1 / (1 + INR k) /\ 0 < x <= 1 /\
  (x = 1 <-> forall i, (i < n)%nat -> ~ keypoint_match d dist_thr score_thr (d_points det) (estimate (v_obj o)) ds ls i).
Proof. exact (voting_facts dist_thr score_thr n d det o ds ls). Qed.
Print Assumptions C48_keypoints_voting.

(** More matching keypoints never increase the distance, whatever else changes. *)
Theorem C48_monotone (FO : filter_ops RNum) (dist_thr score_thr : R) n d (det det' : detection RNum) (o o' : oview FO) ds ls ds' ls' x x' :
  shaped n d (d_points det) -> shaped n d (estimate (v_obj o)) ->
  d_scores det = Some ds -> d_scores (v_last o) = Some ls -> length ds = n -> length ls = n ->
  shaped n d (d_points det') -> shaped n d (estimate (v_obj o')) ->
  d_scores det' = Some ds' -> d_scores (v_last o') = Some ls' -> length ds' = n -> length ls' = n ->
  (forall i, (i < n)%nat -> keypoint_match d dist_thr score_thr (d_points det) (estimate (v_obj o)) ds ls i ->
                            keypoint_match d dist_thr score_thr (d_points det') (estimate (v_obj o')) ds' ls' i) ->
  keypoints_voting_distance dist_thr score_thr (VDet det) o = Ret (@DFin RNum x) ->
  keypoints_voting_distance dist_thr score_thr (VDet det') o' = Ret (@DFin RNum x') -> x' <= x.
Proof. exact (voting_monotone dist_thr score_thr n d det det' o o' ds ls ds' ls' x x'). Qed.
Print Assumptions C48_monotone.

(** Without scores the function raises TypeError. *)
Theorem C48_no_scores (FO : filter_ops RNum) (dist_thr score_thr : R) (det : detection RNum) (o : oview FO) :
  map (@length R) (d_points det) = map (@length R) (estimate (v_obj o)) -> d_scores det = None ->
  keypoints_voting_distance dist_thr score_thr (VDet det) o = Raise ETypeError.
Proof. exact (voting_no_scores dist_thr score_thr det o). Qed.
Print Assumptions C48_no_scores.

Example C48_case : exists x, keypoints_voting_arrays 1 (1/2) [[0; 0]; [5; 5]; [9; 9]] [[0; 0]; [5; 5]; [0; 0]] (Some [1; 1; 1]) (Some [1; 0; 1])
  = Ret (@DFin RNum x) /\ x = 1 / 2.
Proof.
  eexists. split.
  - unfold keypoints_voting_arrays. cbn [array_sub same_shape length combine map2 map concat forallb fst snd andb Nat.eqb above].
    reflexivity.
  - unfold norm2. cbn [map rsum fold_right fst snd map2 combine].
    destruct (rltb_spec (sqrt ((0 - 0) * (0 - 0) + ((0 - 0) * (0 - 0) + 0))) 1) as [a|a].
    2:{ exfalso. apply a. replace ((0 - 0) * (0 - 0) + ((0 - 0) * (0 - 0) + 0)) with 0 by ring. rewrite sqrt_0. lra. }
    destruct (rltb_spec (1 / 2) 1) as [b|b]; [|lra]. destruct (rltb_spec (1 / 2) 0) as [c|c]; [lra|].
    destruct (rltb_spec (sqrt ((9 - 0) * (9 - 0) + ((9 - 0) * (9 - 0) + 0))) 1) as [e|e].
    + exfalso. apply (Rlt_not_le _ _ e). rewrite <- sqrt_1 at 1. apply sqrt_le_1_alt. lra.
    + rewrite !andb_true_r, !andb_false_r. cbn [andb count_occ bool_dec bool_rec bool_rect INR]. lra.
Qed.

(** C49.  The true bound is sqrt 2, reached at opposite corners, so the documented bound of 1 is wrong. *)
Theorem C49_normalized_partial (FO : filter_ops RNum) (height width : R) n (det : detection RNum) (o : oview FO) :
  0 < height -> 0 < width -> (0 < n)%nat ->
  shaped n 2 (d_points det) -> shaped n 2 (estimate (v_obj o)) ->
  inside_image height width (d_points det) -> inside_image height width (estimate (v_obj o)) ->
  exists x, normalized_mean_euclidean_distance height width (VDet det) o = Ret (@DFin RNum x) /\ 0 <= x <= sqrt 2.
Proof. exact (fun H W Hn A B IA IB => normalized_bounds height width H W n _ _ Hn A B IA IB). Qed.
Print Assumptions C49_normalized_partial.

Theorem C49_refuted (height width : R) : 0 < height -> 0 < width -> exists a b x,
  shaped 1 2 a /\ shaped 1 2 b /\ inside_image height width a /\ inside_image height width b /\
  normalized_mean_euclidean_arrays height width a b = Ret (@DFin RNum x) /\ ~ x <= 1.
Proof. exact (normalized_refuted height width). Qed.
Print Assumptions C49_refuted.

(** C50. *)
Theorem C50_by_name (FO : filter_ops RNum) cdist (name : string) :
  (name = "frobenius"%string -> @get_distance_by_name FO cdist name = Ret (ScalarDistance frobenius)) /\
  (name = "mean_euclidean"%string -> @get_distance_by_name FO cdist name = Ret (ScalarDistance mean_euclidean)) /\
  (name = "mean_manhattan"%string -> @get_distance_by_name FO cdist name = Ret (ScalarDistance mean_manhattan)) /\
  (In name vectorized_names -> @get_distance_by_name FO cdist name = Ret (VectorizedDistance (@iou RNum))) /\
  (In name scipy_names -> @get_distance_by_name FO cdist name = Ret (VectorizedDistance (cdist name))) /\
  (~ In name (scalar_names ++ scipy_names ++ vectorized_names) -> @get_distance_by_name FO cdist name = Raise EValueError).
Proof. exact (names_facts cdist name). Qed.
Print Assumptions C50_by_name.

(** The same through the constructor of the tracker: an unknown name raises ValueError whatever the other
    arguments are. *)
Theorem C50_constructor (FO : filter_ops RNum) rnd cdist (a : @targs RNum FO) name :
  a_distance a = DName name -> ~ In name (scalar_names ++ scipy_names ++ vectorized_names) ->
  tracker_init rnd (get_distance_by_name cdist) a = Raise EValueError.
Proof. exact (constructor_name rnd cdist a name). Qed.
Print Assumptions C50_constructor.

Example C50_case : ~ In "IoU"%string (scalar_names ++ scipy_names ++ vectorized_names) /\ In "cosine"%string scipy_names.
Proof.
  split.
  - intros H. apply existsb_names in H. vm_compute in H. discriminate H.
  - apply existsb_names. vm_compute. reflexivity.
Qed.

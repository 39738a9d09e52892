(** C113: with distances measured in absolute coordinates the motion of the camera does not matter. *)
From Coq Require Import ZArith QArith Qcanon Reals List.
From Verif Require Import Model.Num Model.Base Model.Filter Model.Tracker Model.CameraMotion
  Spec.CallSpec Spec.MovingSpec Spec.FilmSpec Spec.CameraSpec Spec.ExamplePoints Proofs.RingNums Proofs.FilmProofs Proofs.FilmCameras.
Import ListNotations.
Local Open Scope nat_scope.

(** Any transformations of the coordinates, a new one for each camera and call, any filter and any scenes. *)
Theorem C113_two_cameras : forall (N : Num) (FO : filter_ops N) (c : tconf FO) h g dummy (xs : list (scene (N := N))),
  measures_absolute c -> Forall good_scene xs ->
  let s := MkSt h g (fun _ => dummy) [] 0 0 in
  Forall2 (fun x ab => same_world x (fst ab) (snd ab)) xs
    (combine (filming (first_call c) s xs) (filming (second_call c) s xs)).
Proof. exact two_cameras. Qed.
Print Assumptions C113_two_cameras.

(** The scenes exist: a camera that can be undone on the points of the world, beside a still one ... *)
Theorem C113_filmed : forall (N : Num) (T : coord_transformation N) period (world : list (nat * detection N)),
  NoDup (map fst world) ->
  Forall (fun rd => unseen (snd rd) /\ ct_rel_to_abs T (ct_abs_to_rel T (d_points (snd rd))) = d_points (snd rd)) world ->
  good_scene (filmed_by T period world).
Proof. intros N. exact filmed_good. Qed.
Print Assumptions C113_filmed.

(** ... such as an invertible homography that sends none of the points to infinity. *)
Theorem C113_homography : forall (m : mat3 RNum) (h : homography RNum) period (world : list (nat * detection RNum)),
  homography_new m = Ret h -> NoDup (map fst world) ->
  Forall (fun rd : nat * detection RNum => unseen (snd rd) /\
    Forall (fun row : list R => exists x y : R, row = [x; y] /\ depth (apply3 m (x, y, 1%R)) <> 0%R) (d_points (snd rd))) world ->
  good_scene (filmed_by (homography_ct h) period world).
Proof. exact filmed_homography. Qed.
Print Assumptions C113_homography.

(** A camera that moves, tilts and zooms, and a still one: the same ids; the estimate as each sees it, and in absolute
    coordinates. *)
Example C113_case : measures_absolute (FO := nF) (film_conf world_distance) /\ Forall good_scene film_scenes /\
  map snd (filming (first_call (film_conf world_distance)) (film_start nF) film_scenes) = [Ret []; Ret [1; 2]; Ret [1; 2]] /\
  film_shown (filming (first_call (film_conf world_distance)) (film_start nF) film_scenes) 1 = ([[20; 10]], [[2; 1]])%Q /\
  film_shown (filming (second_call (film_conf world_distance)) (film_start nF) film_scenes) 1 = ([[2; 1]], [[2; 1]])%Q.
Proof. exact (conj world_measures (conj film_good film_results)). Qed.

(** With a distance of the points and estimates in the image (as all the built-in ones are) a zooming camera loses the
    objects that the still one keeps. *)
Theorem C113_in_image_refuted : exists (c : tconf nF) h dummy xs, tc_distance c = ScalarDistance image_distance /\ Forall good_scene xs /\
  let s := MkSt h 0 (fun _ => dummy) [] 0 0 in
  map snd (filming (first_call c) s xs) = [Ret []; Ret []] /\ map snd (filming (second_call c) s xs) = [Ret []; Ret [1; 2]].
Proof. exact film_in_image. Qed.
Print Assumptions C113_in_image_refuted.

(** Scenes filmed by a camera and by a still one; concrete cameras. *)
From Coq Require Import ZArith QArith Qcanon Reals List.
From Verif Require Import Model.Num Model.Base Model.Matching Model.Filter Model.Tracker Model.CameraMotion
  Spec.CallSpec Spec.ExampleVideo Spec.MovingSpec Spec.FilmSpec Spec.CameraSpec Spec.ExamplePoints
  Proofs.RingNums Proofs.CameraProofs Proofs.HomographyProofs Proofs.MovingExamples.
Import ListNotations.
Local Open Scope nat_scope.

Lemma filmed_good {N : Num} (T : coord_transformation N) period (world : list (nat * detection N)) : NoDup (map fst world) ->
  Forall (fun rd => unseen (snd rd) /\ ct_rel_to_abs T (ct_abs_to_rel T (d_points (snd rd))) = d_points (snd rd)) world ->
  good_scene (filmed_by T period world).
Proof.
  intros Hn Hw. split; [cbn; rewrite map_map; exact Hn|]. cbn. apply Forall_map. eapply Forall_impl; [|exact Hw].
  intros [r d] [U R]. cbn in *. split; cbn; auto. split; [reflexivity|exact U].
Qed.
Lemma filmed_homography (m : mat3 RNum) (h : homography RNum) period (world : list (nat * detection RNum)) :
  homography_new m = Ret h -> NoDup (map fst world) ->
  Forall (fun rd : nat * detection RNum => unseen (snd rd) /\
    Forall (fun row : list R => exists x y : R, row = [x; y] /\ depth (apply3 m (x, y, 1%R)) <> 0%R) (d_points (snd rd) : list (list R))) world ->
  good_scene (filmed_by (homography_ct h) period world).
Proof.
  intros Hh Hn Hw. apply filmed_good; [exact Hn|]. eapply Forall_impl; [|exact Hw]. intros rd [U R]. split; [exact U|].
  exact (homography_round_trip m h _ Hh R).
Qed.

(** ** Two objects; a camera that moves, zooms out and tilts, and a still one.  Manhattan distance, threshold 5. *)
Section D.
Context {FO : filter_ops QcNum}.
Definition world_points (o : oview FO) : points QcNum := match get_estimate (v_obj o) true with Ret p => p | Raise _ => [] end.
Definition world_distance (c : cview FO) (o : oview FO) : result (dval QcNum) :=
  match c with
  | VDet d => mv_arrays (d_absolute_points d) (world_points o)
  | VObj o' => mv_arrays (world_points o') (world_points o)
  end.
Lemma world_absolute : absolute_distance world_distance.
Proof.
  assert (E : forall o1 o2, obj_same o1 o2 -> world_points o1 = world_points o2).
  { intros o1 o2 H. destruct (ob_estimate _ _ H) as (p & E1 & E2). unfold world_points. rewrite E1, E2. reflexivity. }
  intros [d1|x1] [d2|x2] o1 o2 Hc Ho; try contradiction; cbn in *; rewrite (E _ _ Ho).
  - rewrite (sd_absolute _ _ Hc). reflexivity.
  - rewrite (E _ _ Hc). reflexivity.
Qed.
Definition image_distance (c : cview FO) (o : oview FO) : result (dval QcNum) :=
  match c with VDet d => mv_arrays (d_points d) (estimate (v_obj o)) | VObj o' => mv_arrays (estimate (v_obj o')) (estimate (v_obj o)) end.
Definition film_conf (f : cview FO -> oview FO -> result (dval QcNum)) : tconf FO :=
  MkTconf (ScalarDistance f) (DFin (qc 5)) 3 1 3 (qc 0) 2 (Some f) (DFin (qc 50)) (Some 4%Z) (fun x => x).
Lemma world_measures : measures_absolute (film_conf world_distance).
Proof.
  split; [exists world_distance; split; [reflexivity|exact world_absolute]|]. intros f E. injection E as <-. exact world_absolute.
Qed.
End D.
Definition film_matrix (a b c d e f g h i : Q) : mat3 QcNum := MkM (qc a) (qc b) (qc c) (qc d) (qc e) (qc f) (qc g) (qc h) (qc i).
Definition film_camera (m : mat3 QcNum) : coord_transformation QcNum := match homography_new m with Ret h => homography_ct h | Raise _ => still end.
Definition film_world (r : nat) : list (nat * detection QcNum) := [(r, mv_det 0 0); (S r, mv_det 40 20)].
Definition film_zoom : coord_transformation QcNum := film_camera (film_matrix 10 0 0 0 10 0 0 0 1).
Definition film_scenes : list (scene (N := QcNum)) :=
  [filmed_by (film_camera (film_matrix 1 0 7 0 1 3 0 0 1)) 1%Z (film_world 1);
   filmed_by (film_camera (film_matrix (1#2) (1#4) 7 0 (1#3) 3 (1#100) 0 1)) 1%Z [(3, mv_det 1 1); (4, mv_det 41 19)];
   filmed_by film_zoom 1%Z [(5, mv_det 2 1)]].
Lemma show_inj (p q : points QcNum) : show p = show q -> p = q.
Proof.
  assert (I : forall {A B} (f : A -> B), (forall x y, f x = f y -> x = y) -> forall a b, map f a = map f b -> a = b).
  { intros A B f Hf. induction a as [|x a IH]; intros [|y b] E; try discriminate; auto. injection E as E1 E2. f_equal; auto. }
  apply I. apply I. intros x y E. apply Qc_is_canon. rewrite E. reflexivity.
Qed.
Lemma film_good : Forall good_scene film_scenes.
Proof.
  repeat apply Forall_cons; try apply Forall_nil; apply filmed_good.
  all: match goal with |- NoDup _ => cbn [map fst film_world]; repeat constructor; cbn; intros H; repeat destruct H as [H|H]; try discriminate; auto | _ => idtac end.
  all: unfold film_world; repeat apply Forall_cons; try apply Forall_nil; (refine (conj _ _); [reflexivity|]); apply show_inj; vm_compute; reflexivity.
Qed.
Definition film_start (FO : filter_ops QcNum) : st FO := MkSt (fun _ => mv_det 0 0) 0 (fun _ => pt_dummy) [] 0 0.
Definition film_shown {FO : filter_ops QcNum} (l : list (st FO * result (list nat))) i :=
  match last (map Some l) None with
  | Some a => (show (estimate (s_store (fst a) i)), show (match get_estimate (s_store (fst a) i) true with Ret p => p | Raise _ => [] end))
  | None => ([], []) end.
Lemma film_results : map snd (filming (first_call (film_conf world_distance)) (film_start nF) film_scenes) = [Ret []; Ret [1; 2]; Ret [1; 2]] /\
  film_shown (filming (first_call (film_conf world_distance)) (film_start nF) film_scenes) 1 = ([[20; 10]], [[2; 1]])%Q /\
  film_shown (filming (second_call (film_conf world_distance)) (film_start nF) film_scenes) 1 = ([[2; 1]], [[2; 1]])%Q.
Proof. refine (conj _ (conj _ _)); vm_compute; reflexivity. Qed.
(** With the distance in the image the tracker of the zooming camera loses the objects. *)
Definition film_zoomed : list (scene (N := QcNum)) :=
  [filmed_by film_zoom 1%Z (film_world 1); filmed_by film_zoom 1%Z [(3, mv_det 1 1); (4, mv_det 41 19)]].
Lemma film_zoomed_good : Forall good_scene film_zoomed.
Proof.
  repeat apply Forall_cons; try apply Forall_nil; apply filmed_good.
  all: match goal with |- NoDup _ => cbn [map fst film_world]; repeat constructor; cbn; intros H; repeat destruct H as [H|H]; try discriminate; auto | _ => idtac end.
  all: unfold film_world; repeat apply Forall_cons; try apply Forall_nil; (refine (conj _ _); [reflexivity|]); apply show_inj; vm_compute; reflexivity.
Qed.
Lemma film_in_image : exists (c : tconf nF) h dummy xs, tc_distance c = ScalarDistance image_distance /\ Forall good_scene xs /\
  let s := MkSt h 0 (fun _ => dummy) [] 0 0 in
  map snd (filming (first_call c) s xs) = [Ret []; Ret []] /\ map snd (filming (second_call c) s xs) = [Ret []; Ret [1; 2]].
Proof.
  exists (film_conf image_distance), (fun _ => mv_det 0 0), pt_dummy, film_zoomed. split; [reflexivity|]. split; [exact film_zoomed_good|].
  refine (conj _ _); vm_compute; reflexivity.
Qed.

(** Vocabulary for C113: the same world filmed by two cameras that move in any way. *)
From Coq Require Import ZArith List Arith.
From Verif Require Import Model.Num Model.Base Model.Filter Model.Tracker Spec.CallSpec Spec.ExampleVideo Spec.MovingSpec.
Import ListNotations.

Section S.
Context {N : Num} {FO : filter_ops N}.
Notation st := (st FO).

(** One call of update for each camera: the references of the fresh detections, each with what the first and what the second camera
    makes of it, the period, and the coordinate transformations of the two cameras. *)
Record scene := MkScene {
  sc_new : list (nat * (detection N * detection N)); sc_period : Z;
  sc_first : coord_transformation N; sc_second : coord_transformation N }.
(** Both detections show the same place of the world, with the same scores, label and data. *)
Record same_place (x : scene) (d1 d2 : detection N) : Prop := {
  sp_fresh : unseen d1 /\ unseen d2;
  sp_scores : d_scores d1 = d_scores d2;
  sp_label : d_label d1 = d_label d2;
  sp_data : d_data d1 = d_data d2;
  sp_place : ct_rel_to_abs (sc_first x) (d_points d1) = ct_rel_to_abs (sc_second x) (d_points d2)
}.
Definition good_scene (x : scene) : Prop :=
  NoDup (map fst (sc_new x)) /\ Forall (fun rd => same_place x (fst (snd rd)) (snd (snd rd))) (sc_new x).

Definition first_call (c : tconf FO) (s : st) (x : scene) : st * result (list nat) :=
  update c (Some (map fst (sc_new x))) (sc_period x) (Some (sc_first x))
    (meanwhile s (put (s_heap s) (map (fun rd => (fst rd, fst (snd rd))) (sc_new x))) (s_gcount s)).
Definition second_call (c : tconf FO) (s : st) (x : scene) : st * result (list nat) :=
  update c (Some (map fst (sc_new x))) (sc_period x) (Some (sc_second x))
    (meanwhile s (put (s_heap s) (map (fun rd => (fst rd, snd (snd rd))) (sc_new x))) (s_gcount s)).
(** State and result after each call; a program may go on after an exception. *)
Fixpoint filming (f : st -> scene -> st * result (list nat)) (s : st) (xs : list scene) : list (st * result (list nat)) :=
  match xs with [] => [] | x :: xs' => let a := f s x in a :: filming f (fst a) xs' end.

(** A camera that does not move; what a camera makes of a detection of the world; and the scene filmed by a camera and by a
    still one. *)
Definition still : coord_transformation N := {| ct_abs_to_rel := fun p => p; ct_rel_to_abs := fun p => p |}.
Definition through (T : coord_transformation N) (d : detection N) : detection N :=
  new_detection (ct_abs_to_rel T (d_points d)) (d_scores d) (d_data d) (d_label d).
Definition filmed_by (T : coord_transformation N) (period : Z) (world : list (nat * detection N)) : scene :=
  MkScene (map (fun rd => (fst rd, (through T (snd rd), snd rd))) world) period T still.

(** Both trackers have the same result and the same objects, with the same ids, counters, detections and filters and the
    same absolute estimates; the relative estimates are these as seen by the cameras. *)
Record same_world (x : scene) (a b : st * result (list nat)) : Prop := {
  sw_result : snd a = snd b;
  sw_tracked : s_tracked (fst a) = s_tracked (fst b);
  sw_total : s_count (fst a) = s_count (fst b);
  sw_created : s_icount (fst a) = s_icount (fst b);
  sw_global : s_gcount (fst a) = s_gcount (fst b);
  sw_objects : forall i, known (fst a) i -> hide_ct (s_store (fst a) i) = hide_ct (s_store (fst b) i);
  sw_estimates : forall i, tracked (fst a) i -> exists p,
    get_estimate (s_store (fst a) i) true = Ret p /\ get_estimate (s_store (fst b) i) true = Ret p /\
    estimate (s_store (fst a) i) = ct_abs_to_rel (sc_first x) p /\ estimate (s_store (fst b) i) = ct_abs_to_rel (sc_second x) p;
  sw_detections : forall r, same_det (s_heap (fst a) r) (s_heap (fst b) r)
}.

(** ** Distances measured in absolute coordinates: they do not look at the relative points and estimates *)
Record obj_same (o1 o2 : oview FO) : Prop := {
  ob_object : hide_ct (v_obj o1) = hide_ct (v_obj o2);
  ob_estimate : exists p, get_estimate (v_obj o1) true = Ret p /\ get_estimate (v_obj o2) true = Ret p;
  ob_last : same_det (v_last o1) (v_last o2);
  ob_past : Forall2 same_det (v_past o1) (v_past o2) }.
Definition cand_same (c1 c2 : cview FO) : Prop :=
  match c1, c2 with VDet d1, VDet d2 => same_det d1 d2 | VObj o1, VObj o2 => obj_same o1 o2 | _, _ => False end.
Definition absolute_distance (f : cview FO -> oview FO -> result (dval N)) : Prop :=
  forall c1 c2 o1 o2, cand_same c1 c2 -> obj_same o1 o2 -> f c1 o1 = f c2 o2.
Record measures_absolute (c : tconf FO) : Prop := {
  ma_distance : exists f, tc_distance c = ScalarDistance f /\ absolute_distance f;
  ma_reid : forall f, tc_reid_distance c = Some f -> absolute_distance f
}.
End S.

(** Vocabulary for C86: calls that are well formed. *)
From Coq Require Import ZArith List Arith.
From Verif Require Import Model.Num Model.Base Model.Matching Model.Filter Model.Tracker Spec.MatchingSpec Spec.CallSpec Spec.PointSpec Spec.ExampleVideo.
Import ListNotations.

Section S.
Context {N : Num} {FO : filter_ops N}.
Variables n dim : nat.

(** A detection of [n] points of dimension [dim]; if it has scores, then one for each point. *)
Definition det_shape (d : detection N) : Prop :=
  rectangular n dim (d_points d) /\ rectangular n dim (d_absolute_points d) /\ forall sc, d_scores d = Some sc -> length sc = n.

(** A coordinate transformation that returns as many points, of the same dimension, as it gets. *)
Definition keeps_shape (T : coord_transformation N) : Prop :=
  forall p, rectangular n dim p -> rectangular n dim (ct_rel_to_abs T p) /\ rectangular n dim (ct_abs_to_rel T p).

(** An object with this shape: its estimate, last_detection and past_detections. *)
Definition view_shape (o : oview FO) : Prop :=
  rectangular n dim (estimate (v_obj o)) /\ det_shape (v_last o) /\ Forall det_shape (v_past o).

(** The distance is defined, and not NaN, for detections and objects of this shape. *)
Definition distance_defined (dist : distance FO) : Prop :=
  match dist with
  | ScalarDistance f => forall d o, det_shape d -> view_shape o -> exists x, f (VDet d) o = Ret x /\ x <> DNaN
  | VectorizedDistance f => forall cs os, cs <> [] -> os <> [] ->
      Forall (fun v => length v = dim * n) cs -> Forall (fun v => length v = dim * n) os ->
      exists D, f cs os = Ret D /\ rect (length cs) (length os) D /\ nan_free D
  end.
Definition reid_defined (f : cview FO -> oview FO -> result (dval N)) : Prop :=
  forall o o', view_shape o -> view_shape o' -> exists x, f (VObj o) o' = Ret x /\ x <> DNaN.

(** The distances are defined, and the thresholds are not so large that adding 1 and storing the sum in the matrix
    gives something smaller (see C03). *)
Record usable (c : tconf FO) : Prop := {
  us_distance : distance_defined (tc_distance c);
  us_threshold : ~ dlt (tc_rnd c (dsucc (tc_threshold c))) (tc_threshold c);
  us_reid : forall f, tc_reid_distance c = Some f ->
     reid_defined f /\ ~ dlt (tc_rnd c (dsucc (tc_reid_threshold c))) (tc_reid_threshold c);
  us_rounding : forall x, dis_nan (tc_rnd c x) = dis_nan x
}.

(** A program that creates each detection once, all of the same shape, and passes only detections it has created.  It
    may pass them several times, and any periods; [in_new] lists the detections created before a call. *)
Record well_formed_calls (ins : list (input N)) : Prop := {
  wc_once : NoDup (flat_map (fun x => map fst (in_new x)) ins);
  wc_shape : forall x r d, In x ins -> In (r, d) (in_new x) -> det_shape d;
  wc_created : forall before x after r, ins = before ++ x :: after -> In r (in_dets x) ->
     In r (flat_map (fun y => map fst (in_new y)) (before ++ [x]));
  wc_transformation : forall x T, In x ins -> in_ct x = Some T -> keeps_shape T
}.
End S.

(** A tracker that has just been created, in a program with any detections. *)
Definition new_tracker {N : Num} {FO : filter_ops N} (heap : nat -> detection N) (g : nat) (dummy : tobj FO) : st FO :=
  MkSt heap g (fun _ => dummy) [] 0 0.

(** The result of the call [x] made in the state [s]. *)
Definition result_of {N : Num} {FO : filter_ops N} (c : tconf FO) (s : st FO) (x : input N) : result (list nat) :=
  snd (update c (Some (in_dets x)) (in_period x) (in_ct x) (meanwhile s (put (s_heap s) (in_new x)) (s_gcount s))).

(** A detection that is a box with its first corner to the left of and above the second. *)
Definition proper_box {N : Num} (d : detection N) : Prop :=
  exists l t r b, d_points d = [[l; t]; [r; b]] /\ nltb l r = true /\ nltb t b = true.

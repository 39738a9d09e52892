(** Vocabulary for C104: groups of detections that are far from each other. *)
From Coq Require Import ZArith List Arith Bool.
From Verif Require Import Model.Num Model.Base Model.Matching Model.Filter Model.Tracker Spec.CallSpec Spec.ExampleVideo Spec.GroundTruthSpec Spec.LabelSpec.
Import ListNotations.

Section S.
Context {N : Num} {FO : filter_ops N}.
Variable group : nat -> bool.    (* the group a detection belongs to *)

(** In this call no detection has a distance below the threshold to an object of the other group.  An object
    belongs to the group of the detection it was matched with last.  Distances are taken when the objects have
    made their step. *)
Definition apart (c : tconf FO) (f : cview FO -> oview FO -> result (dval N)) (fr : frame FO) : Prop :=
  forall i r, matchable c (f_pre fr) i -> In r (f_dets fr) ->
    near c f (snd (begin_update c (f_dets fr) (f_ct fr) (f_pre fr))) r i -> group r = group (last_det (f_pre fr) i).

(** The objects [is] of [s1] that belong to the group are, in the same order, the objects [js] of [s2]; [R] says
    which object of one tracker is which object of the other. *)
Definition group_part (R : nat -> nat -> Prop) (s1 s2 : st FO) (is js : list nat) : Prop :=
  Forall2 (fun i j => R i j /\ same_object s1 s2 i j) (filter (fun i => group (last_det s1 i)) is) js.
Definition group_parts (R : nat -> nat -> Prop) (x y : frame FO) : Prop :=
  group_part R (f_post x) (f_post y) (f_out x) (f_out y) /\
  group_part R (f_post x) (f_post y) (s_tracked (f_post x)) (s_tracked (f_post y)).
End S.

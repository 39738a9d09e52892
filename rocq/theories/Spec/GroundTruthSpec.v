(** Vocabulary for C87: detections of things, and distances that tell them apart. *)
From Coq Require Import ZArith List Arith.
From Verif Require Import Model.Num Model.Base Model.Matching Model.Filter Model.Tracker Spec.MatchingSpec Spec.CallSpec.
Import ListNotations.

Section S.
Context {N : Num} {FO : filter_ops N}.
Variable thing : Type.
Variable who : nat -> thing.    (* the thing seen in a detection *)

(** A distance that does not read the attribute [age] of detections. *)
Definition age_blind (f : cview FO -> oview FO -> result (dval N)) : Prop := forall d d' o o',
  upto_age d d' -> v_obj o = v_obj o' -> upto_age (v_last o) (v_last o') -> Forall2 upto_age (v_past o) (v_past o') ->
  f (VDet d) o = f (VDet d') o'.

(** Detection [r] and object [i] have the same label and a distance below the threshold. *)
Definition near (c : tconf FO) (f : cview FO -> oview FO -> result (dval N)) (s : st FO) (r i : nat) : Prop :=
  d_label (s_heap s r) = obj_label s i /\
  exists d, f (VDet (s_heap s r)) (view_obj s i) = Ret d /\ dlt (tc_rnd c d) (tc_threshold c).

(** A call in which each thing is detected at most once and an object that can be matched is near the detection of the
    thing it was matched with last, if there is one, and near no other.  Distances are taken when the objects have made
    their step. *)
Record unambiguous (c : tconf FO) (f : cview FO -> oview FO -> result (dval N)) (fr : frame FO) : Prop := {
  un_once : NoDup (map who (f_dets fr));
  un_near : forall i r, matchable c (f_pre fr) i -> In r (f_dets fr) ->
     (near c f (snd (begin_update c (f_dets fr) (f_ct fr) (f_pre fr))) r i <-> who r = who (last_det (f_pre fr) i))
}.

(** No two objects that can be matched were last matched with the same thing. *)
Definition one_each (c : tconf FO) (s : st FO) : Prop :=
  forall i j, matchable c s i -> matchable c s j -> who (last_det s i) = who (last_det s j) -> i = j.

(** Each detection goes to the object that follows its thing; a new object is made exactly for things that no object
    follows; an object never changes to another thing. *)
Record right_association (c : tconf FO) (fr : frame FO) : Prop := {
  ra_keeps : forall i, known (f_pre fr) i -> who (last_det (f_post fr) i) = who (last_det (f_pre fr) i);
  ra_taken : forall i r, matchable c (f_pre fr) i -> In r (f_dets fr) -> who r = who (last_det (f_pre fr) i) ->
     last_det (f_post fr) i = r;
  ra_missed : forall i, known (f_pre fr) i ->
     ~ (matchable c (f_pre fr) i /\ exists r, In r (f_dets fr) /\ who r = who (last_det (f_pre fr) i)) ->
     last_det (f_post fr) i = last_det (f_pre fr) i;
  ra_new : forall r, In r (f_dets fr) -> (forall i, matchable c (f_pre fr) i -> who (last_det (f_pre fr) i) <> who r) ->
     exists i, s_icount (f_pre fr) < i <= s_icount (f_post fr) /\ tracked (f_post fr) i /\ last_det (f_post fr) i = r;
  ra_only_new : forall i, s_icount (f_pre fr) < i <= s_icount (f_post fr) ->
     In (last_det (f_post fr) i) (f_dets fr) /\
     forall j, matchable c (f_pre fr) j -> who (last_det (f_pre fr) j) <> who (last_det (f_post fr) i);
  ra_one_each : one_each c (f_post fr)
}.
End S.

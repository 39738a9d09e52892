(** Vocabulary for C107: a video is tracked and the objects returned by each call are written to a predictions file, or
    given to the accumulators. *)
From Coq Require Import ZArith String List Arith.
From Verif Require Import Model.Num Model.Base Model.Strings Model.Filter Model.Tracker Model.Metrics Spec.CallSpec Spec.PointSpec Spec.ExampleVideo Spec.ProgressSpec Spec.MetricsSpec.
Import ListNotations.
Local Open Scope nat_scope.

Section S.
Context {N : Num}.
(** The objects returned by a call, as the writers see them: id and estimate. *)
Definition predictions_of {FO : filter_ops N} (f : frame FO) : list (prediction (N := N)) :=
  map (fun i => MkPred (o_id (s_store (f_post f) i)) (estimate (s_store (f_post f) i))) (f_out f).
(** The state after the last call. *)
Definition final {FO : filter_ops N} (s : st FO) (fs : list (frame FO)) : st FO := fold_left (fun _ f => f_post f) fs s.

Definition has_id (a : nat) (xs : list (box N)) : Prop := In a (map b_id xs).
(** In each frame an id occurs at most once, and all ids are among 1, ..., [total]. *)
Definition one_box_each (total : nat) (boxes : list (list (box N))) : Prop :=
  forall xs, In xs boxes -> NoDup (map b_id xs) /\ forall a, has_id a xs -> 1 <= a <= total.
(** Between two frames with an id all frames have it. *)
Definition without_gaps (boxes : list (list (box N))) : Prop :=
  forall a k1 k2 k3 x1 x2 x3, k1 <= k2 <= k3 ->
    nth_error boxes k1 = Some x1 -> nth_error boxes k2 = Some x2 -> nth_error boxes k3 = Some x3 -> has_id a x1 -> has_id a x3 -> has_id a x2.
(** All ids 1, ..., [total] occur. *)
Definition all_ids (total : nat) (boxes : list (list (box N))) : Prop :=
  forall a, 1 <= a <= total -> exists xs, In xs boxes /\ has_id a xs.
(** Equal ids mean the same object, in the same frame or in different ones. *)
Definition ids_name_objects {FO : filter_ops N} (fs : list (frame FO)) : Prop :=
  forall f f' i i', In f fs -> In f' fs -> In i (f_out f) -> In i' (f_out f') ->
    (o_id (s_store (f_post f) i) = o_id (s_store (f_post f') i') <-> i = i').

(** A sequence given to the accumulators: all calls of a new tracker on boxes, of which not exactly one was returned. *)
Definition tracked_session (v : session N) : Prop :=
  exists (FO : filter_ops N) wf n dim (c : tconf FO) ins heap g dummy fs,
    regular FO wf /\ 2 <= n /\ 2 <= dim /\ usable n dim c /\ well_formed_calls n dim ins /\ ins <> [] /\
    play c (new_tracker heap g dummy) ins = Some fs /\ length (concat (map f_out fs)) <> 1 /\
    snd v = (Z.of_nat (length fs), map predictions_of fs).
(** What identifies a row of the table that is compared with the ground truth. *)
Definition row_key (r : mrow (N := N)) : Z * option nat := (mr_frame r, mr_id r).
End S.

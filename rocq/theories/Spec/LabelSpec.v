(** Vocabulary for C84: two trackers, one of which is given only some of the detections. *)
From Coq Require Import ZArith List Arith Bool.
From Verif Require Import Model.Num Model.Base Model.Matching Model.Filter Model.Tracker Spec.CallSpec Spec.ExampleVideo.
Import ListNotations.

Section S.
Context {N : Num} {FO : filter_ops N}.

(** An object without the numbers a tracker gives to it (initializing_id, id, global_id) and without
    current_min_distance. *)
Definition anonymous_conf (c : oconf N) : oconf N :=
  MkOconf 0 (oc_num_points c) (oc_dim_points c) (oc_hit_counter_max c) (oc_pointwise_max c) (oc_delay c)
    (oc_det_thr c) (oc_initial_period c) (oc_reid_max c) (oc_past_len c) (oc_label c).
Definition anonymous (o : tobj FO) : tobj FO :=
  MkObj (anonymous_conf (o_conf o)) (o_hit o) (o_reid o) (o_last_distance o) None (o_last_det o)
    (o_age o) (o_initializing o) None None (o_once o) (o_point_hits o) (o_past o) (o_filter o) (o_abs_to_rel o).
Definition anonymous_view (v : oview FO) : oview FO := MkOView (anonymous (v_obj v)) (v_last v) (v_past v).
Definition anonymous_cand (c : cview FO) : cview FO :=
  match c with VDet d => VDet d | VObj v => VObj (anonymous_view v) end.

(** A distance function that does not look at those numbers. *)
Definition number_blind (f : cview FO -> oview FO -> result (dval N)) : Prop :=
  forall c o, f c o = f (anonymous_cand c) (anonymous_view o).

(** Object [i] in [s1] and object [j] in [s2] agree in everything else, including the contents of
    last_detection and past_detections. *)
Definition same_object (s1 s2 : st FO) (i j : nat) : Prop :=
  anonymous_view (view_obj s1 i) = anonymous_view (view_obj s2 j).

(** The same call with only the detections (references) selected by [keep]. *)
Definition only (keep : nat -> bool) (x : input N) : input N :=
  MkInput (in_new x) (filter keep (in_dets x)) (in_period x) (in_ct x).

(** A tracker that has not been called. *)
Definition new_tracker (heap : nat -> detection N) (g : nat) (dummy : tobj FO) : st FO :=
  MkSt heap g (fun _ => dummy) [] 0 0.

(** The label of the detection with reference [r] is [lab r], and stays so. *)
Definition labelled (lab : nat -> label) (heap : nat -> detection N) (ins : list (input N)) : Prop :=
  (forall r, d_label (heap r) = lab r) /\
  Forall (fun x => Forall (fun y => d_label (snd y) = lab (fst y)) (in_new x)) ins.

(** The objects [is] of [s1] that have a label in [P] are, in the same order, the objects [js] of [s2];
    [R] says which object of one tracker is which object of the other. *)
Definition same_part (P : label -> bool) (R : nat -> nat -> Prop) (s1 s2 : st FO) (is js : list nat) : Prop :=
  Forall2 (fun i j => R i j /\ same_object s1 s2 i j) (filter (fun i => P (obj_label s1 i)) is) js.
Definition same_parts (P : label -> bool) (R : nat -> nat -> Prop) (x y : frame FO) : Prop :=
  same_part P R (f_post x) (f_post y) (f_out x) (f_out y) /\
  same_part P R (f_post x) (f_post y) (s_tracked (f_post x)) (s_tracked (f_post y)).
Definition one_to_one_rel (R : nat -> nat -> Prop) : Prop :=
  forall i j i' j', R i j -> R i' j' -> (i = i' <-> j = j').

(** The distance keeps the labels in [P] apart from the others: a scalar distance compares the labels, and
    must not look at the numbers; a vectorized distance compares the texts of the labels. *)
Definition separates (P : label -> bool) (d : distance FO) : Prop :=
  match d with
  | ScalarDistance f => number_blind f
  | VectorizedDistance _ => forall a b, label_str a = label_str b -> P a = P b
  end.

Lemma frames_play (c : tconf FO) s ins : (match play c s ins with Some _ => true | None => false end) = true ->
  play c s ins = Some (frames c s ins).
Proof. unfold frames. destruct (play c s ins); [reflexivity|discriminate]. Qed.
End S.

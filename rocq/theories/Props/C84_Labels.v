(** C84: classes do not interact. *)
From Coq Require Import ZArith QArith String List Bool Arith Lia.
From Verif Require Import Model.Num Model.Base Model.Matching Model.Filter Model.Float32 Model.Tracker
  Spec.CallSpec Spec.ExampleTracker Spec.ExampleVideo Spec.LabelSpec Proofs.Effect Proofs.Float32Proofs Proofs.LabelMain Props.C08_Vectorized.
Import ListNotations.
Local Open Scope nat_scope.

Section C84.
Context {N : Num} (laws : NumLaws N) {FO : filter_ops N}.

(** One tracker is given all detections of a video, another one, created later (any [g'], [dummy']) with the
    same arguments, only those with a label in [P].  If the first raises no error, the second does not
    either, and after each call it has returned, and holds, exactly the objects of the first that have a
    label in [P], in the same order.  They differ only in the numbers given to them and in
    current_min_distance, and [R] is the same throughout: an object stays the same object. *)
Theorem C84_classes (c : tconf FO) (P : label -> bool) lab h g g' dummy dummy' ins fa :
  rnd_ok (tc_rnd c) -> separates P (tc_distance c) ->
  (forall f, tc_reid_distance c = Some f -> number_blind f) ->
  labelled lab h ins ->
  play c (new_tracker h g dummy) ins = Some fa ->
  exists R fb, play c (new_tracker h g' dummy') (map (only (fun r => P (lab r))) ins) = Some fb /\
    one_to_one_rel R /\ Forall2 (same_parts P R) fa fb.
Proof. exact (labels_isolated laws c P lab h g g' dummy dummy' ins fa). Qed.
End C84.
Print Assumptions C84_classes.

(** The labels 1 and "1" do interact under a vectorized distance, although they are different: an object
    labelled "1" takes the detection labelled 1, which alone would have made an object of its own. *)
Definition ex84_lab (r : nat) : label := if r =? 1 then LStr "1" else LInt 1.
Definition ex84_mixed : list (input QNum) :=
  [MkInput [(1, ex8_det (LStr "1") 0)] [1] 1 None; MkInput [(2, ex8_det (LInt 1) 1)] [2] 1 None].
Definition is_int (l : label) : bool := match l with LInt _ => true | _ => false end.
Theorem C84_refuted : exists (c : tconf exF) (P : label -> bool) lab h dummy ins fa fb,
  rnd_ok (tc_rnd c) /\ labelled lab h ins /\
  play c (new_tracker h 0 dummy) ins = Some fa /\
  play c (new_tracker h 0 dummy) (map (only (fun r => P (lab r))) ins) = Some fb /\
  map (fun f => filter (fun i => P (obj_label (f_post f) i)) (s_tracked (f_post f))) fa = [[]; []] /\
  map (fun f => filter (fun i => P (obj_label (f_post f) i)) (s_tracked (f_post f))) fb = [[]; [1]].
Proof.
  set (h := fun r => ex8_det (ex84_lab r) 0).
  exists ex8_conf, is_int, ex84_lab, h, ex_dummy, ex84_mixed,
    (frames ex8_conf (new_tracker h 0 ex_dummy) ex84_mixed),
    (frames ex8_conf (new_tracker h 0 ex_dummy) (map (only (fun r => is_int (ex84_lab r))) ex84_mixed)).
  split; [exact round32_not_nan|]. split; [split; [reflexivity|repeat constructor]|].
  split; [apply frames_play; vm_compute; reflexivity|]. split; [apply frames_play; vm_compute; reflexivity|].
  split; vm_compute; reflexivity.
Qed.
Print Assumptions C84_refuted.

(** A case for the positive theorem: a "car" and a "person" at the same places, with re-identification; the
    person is out of sight for some calls and comes back. *)
Definition ex84_class (r : nat) : label := if Nat.even r then LStr "person" else LStr "car".
Definition ex84_see (l : list (nat * Q)) : input QNum :=
  MkInput (map (fun x => (fst x, ex8_det (ex84_class (fst x)) (snd x))) l) (map fst l) 1 None.
Definition ex84_video : list (input QNum) :=
  [ex84_see [(1, 0%Q); (2, 0%Q)]; ex84_see [(3, 1%Q); (4, 2%Q)]; ex84_see [(5, 2%Q)]; ex84_see [(7, 2%Q)]; ex84_see [(9, 3%Q)];
   ex84_see [(11, 3%Q); (12, 20%Q)]; ex84_see [(13, 4%Q); (14, 21%Q)]].
Definition ex84_start : st exF := new_tracker (fun r => ex8_det (ex84_class r) 0) 0 ex_dummy.
Definition is_person (l : label) : bool := label_eqb l (LStr "person").
Example ex84_labelled : labelled ex84_class (s_heap ex84_start) ex84_video.
Proof. split; [reflexivity|repeat constructor]. Qed.
Example ex84_blind : number_blind ex_distance.
Proof. intros [d|o'] o; reflexivity. Qed.
(** (returned, persons among them, held) *)
Example ex84_all :
  map (fun f => (f_out f, filter (fun i => is_person (obj_label (f_post f) i)) (f_out f), s_tracked (f_post f)))
    (frames (ex_conf_reid 5) ex84_start ex84_video) =
  [([], [], [1; 2]); ([1; 2], [2], [1; 2]); ([1; 2], [2], [1; 2]); ([1; 2], [2], [1; 2]); ([1], [], [1; 2]);
   ([1], [], [1; 2; 3]); ([1; 2], [2], [1; 2])].
Proof. vm_compute. reflexivity. Qed.
Example ex84_persons :
  map (fun f => (f_out f, s_tracked (f_post f)))
    (frames (ex_conf_reid 5) ex84_start (map (only (fun r => is_person (ex84_class r))) ex84_video)) =
  [([], [1]); ([1], [1]); ([1], [1]); ([1], [1]); ([], [1]); ([], [1; 2]); ([1], [1])].
Proof. vm_compute. reflexivity. Qed.

(** C104: things that are far from each other do not influence each other. *)
From Coq Require Import ZArith QArith List Bool Arith.
From Verif Require Import Model.Num Model.Base Model.Matching Model.Filter Model.Float32 Model.Tracker.
From Verif Require Import Spec.CallSpec Spec.ExampleTracker Spec.ExampleVideo Spec.GroundTruthSpec Spec.LabelSpec Spec.GroupSpec.
From Verif Require Import Proofs.NumLaws Proofs.Float32Proofs Proofs.Effect Proofs.GroupMain.
Import ListNotations.
Local Open Scope nat_scope.

(** One tracker is given all detections of a video, another one, created later (any [g'], [dummy']) with the
    same arguments, only those of the group.  If the first raises no error and never sees a detection near an
    object of the other group, the second raises no error either, and after each call it has returned, and
    holds, exactly the objects of the group, in the same order.  They differ only in the numbers given to them
    and in current_min_distance; [R] is the same throughout. *)
Theorem C104_groups {N : Num} (laws : NumLaws N) {FO : filter_ops N} (c : tconf FO) f (group : nat -> bool) h g g' dummy dummy' ins fa :
  rnd_ok (tc_rnd c) -> tc_distance c = ScalarDistance f -> number_blind f -> age_blind f -> tc_reid_distance c = None ->
  play c (new_tracker h g dummy) ins = Some fa ->
  (forall fr, In fr fa -> apart group c f fr) ->
  exists R fb, play c (new_tracker h g' dummy') (map (only group) ins) = Some fb /\
    one_to_one_rel R /\ Forall2 (group_parts group R) fa fb.
Proof. exact (groups_isolated laws c f group h g g' dummy dummy' ins fa). Qed.
Print Assumptions C104_groups.

(* ---- two things that come close to each other, and two others far away; odd references are the first group ---- *)
Definition c104_group (r : nat) : bool := Nat.odd r.
Definition c104_in (l : list (nat * Q)) : input QNum := MkInput (map (fun x => (fst x, ex_det (snd x))) l) (map fst l) 1 None.
Definition c104_ins : list (input QNum) :=
  [c104_in [(2, 100%Q); (1, 0%Q); (3, 8%Q)]; c104_in [(5, 6%Q); (4, 103%Q); (7, 2%Q)]; c104_in [(9, 4%Q); (6, 50%Q); (11, 5%Q)];
   c104_in [(8, 49%Q); (13, 3%Q); (10, 104%Q)]; c104_in [(12, 106%Q); (15, 7%Q)]; c104_in []; c104_in [(17, 4%Q); (14, 108%Q); (19, 5%Q)]].
Definition c104_start : st exF := new_tracker (fun _ => ex_det 0) 0 ex_dummy.
Definition c104_all := frames ex_conf c104_start c104_ins.
Example C104_example_blind : number_blind ex_distance /\ age_blind ex_distance.
Proof. split; [intros [d|o'] o; reflexivity|]. intros d d' o o' (_ & _ & _ & _ & E) Eo _ _. unfold ex_distance. cbn. rewrite E, Eo. reflexivity. Qed.
Example C104_example_play : play ex_conf c104_start c104_ins = Some c104_all.
Proof. apply frames_play. vm_compute. reflexivity. Qed.
Example C104_example_apart : forall fr, In fr c104_all -> apart c104_group ex_conf ex_distance fr.
Proof.
  assert (E : forallb (apartb c104_group ex_conf ex_distance) c104_all = true) by (vm_compute; reflexivity).
  rewrite forallb_forall in E. intros fr Hf. apply apartb_ok, E, Hf.
Qed.
(** (returned, those of the group among them, held with their last detections) *)
Example C104_example_all :
  map (fun fr => (f_out fr, filter (fun i => c104_group (last_det (f_post fr) i)) (f_out fr), map (fun i => (i, last_det (f_post fr) i)) (s_tracked (f_post fr)))) c104_all =
  [([], [], [(1, 2); (2, 1); (3, 3)]);
   ([1; 2; 3], [2; 3], [(1, 4); (2, 7); (3, 5)]);
   ([1; 2; 3], [2; 3], [(1, 4); (2, 9); (3, 11); (4, 6)]);
   ([1; 2; 3; 4], [2; 3], [(1, 10); (2, 13); (3, 11); (4, 8)]);
   ([1; 2; 3; 4], [2; 3], [(1, 12); (2, 13); (3, 15); (4, 8)]);
   ([1; 2; 3; 4], [2; 3], [(1, 12); (2, 13); (3, 15); (4, 8)]);
   ([1; 2; 3], [2; 3], [(1, 14); (2, 17); (3, 19); (4, 8)])].
Proof. vm_compute. reflexivity. Qed.
Example C104_example_group :
  map (fun fr => (f_out fr, map (fun i => (i, last_det (f_post fr) i)) (s_tracked (f_post fr)))) (frames ex_conf c104_start (map (only c104_group) c104_ins)) =
  [([], [(1, 1); (2, 3)]); ([1; 2], [(1, 7); (2, 5)]); ([1; 2], [(1, 9); (2, 11)]); ([1; 2], [(1, 13); (2, 11)]);
   ([1; 2], [(1, 13); (2, 15)]); ([1; 2], [(1, 13); (2, 15)]); ([1; 2], [(1, 17); (2, 19)])].
Proof. vm_compute. reflexivity. Qed.

(** Without the distance between the groups the claim is false: the object of detection 1 takes detection 2, and
    detection 3 makes an object of its own. *)
Definition c104_close : list (input QNum) := [c104_in [(1, 0%Q)]; c104_in [(2, 1%Q); (3, 4%Q)]].
Theorem C104_near_refuted : exists (c : tconf exF) f (group : nat -> bool) h dummy ins fa fb,
  rnd_ok (tc_rnd c) /\ tc_distance c = ScalarDistance f /\ number_blind f /\ age_blind f /\ tc_reid_distance c = None /\
  play c (new_tracker h 0 dummy) ins = Some fa /\ play c (new_tracker h 0 dummy) (map (only group) ins) = Some fb /\
  map (fun fr => map (last_det (f_post fr)) (filter (fun i => group (last_det (f_post fr) i)) (f_out fr))) fa = [[]; []] /\
  map (fun fr => map (last_det (f_post fr)) (f_out fr)) fb = [[]; [3]].
Proof.
  exists ex_conf, ex_distance, c104_group, (fun _ => ex_det 0), ex_dummy, c104_close, (frames ex_conf c104_start c104_close), (frames ex_conf c104_start (map (only c104_group) c104_close)).
  split; [exact round32_not_nan|]. split; [reflexivity|]. split; [apply C104_example_blind|]. split; [apply C104_example_blind|]. split; [reflexivity|].
  split; [apply frames_play; vm_compute; reflexivity|]. split; [apply frames_play; vm_compute; reflexivity|].
  split; vm_compute; reflexivity.
Qed.
Print Assumptions C104_near_refuted.

(** C90: a tracker does not accumulate objects. *)
From Coq Require Import ZArith QArith Bool List Arith Lia.
From Verif Require Import Model.Num Model.Base Model.Matching Model.Filter Model.Float32 Model.Tracker
  Spec.MatchingSpec Spec.ExampleTracker Spec.ExampleVideo
  Proofs.NumLaws Proofs.Float32Proofs Proofs.Effect Proofs.MemoryProofs.
From Verif Require Import Spec.CallSpec Spec.MemorySpec.
Import ListNotations.
Local Open Scope nat_scope.

(** C90: after call number [n] of a new tracker, the number of objects it holds is at most the number of
    detections passed to its latest calls: hit_counter_max + 2 of them, plus the countdown of
    re-identification ([P] bounds the periods). *)
Theorem C90_objects_held (N : Num) (laws : NumLaws N) (FO : filter_ops N) (c : tconf FO) P (s : st FO) fs :
  rnd_ok (tc_rnd c) -> tracker_state c s -> s_icount s = 0 -> video c s fs ->
  (forall f, In f fs -> (f_period f <= P)%Z) ->
  forall n f, nth_error fs n = Some f -> length (s_tracked (f_post f)) <= detections (latest (held_calls c P) n fs).
Proof. exact (tracked_bounded laws c P s fs). Qed.
Print Assumptions C90_objects_held.

(** C90: the same for the objects that call number [n] returns. *)
Theorem C90_objects_returned (N : Num) (laws : NumLaws N) (FO : filter_ops N) (c : tconf FO) P (s : st FO) fs :
  rnd_ok (tc_rnd c) -> tracker_state c s -> s_icount s = 0 -> video c s fs ->
  (forall f, In f fs -> (f_period f <= P)%Z) ->
  forall n f, nth_error fs n = Some f -> length (f_out f) <= detections (latest (S (top_counter c P)) n fs).
Proof. exact (returned_bounded laws c P s fs). Qed.
Print Assumptions C90_objects_returned.

(** C90: with at most [D] detections per call the tracker never holds more than a fixed number of objects,
    however long the video. *)
Theorem C90_memory_bounded (N : Num) (laws : NumLaws N) (FO : filter_ops N) (c : tconf FO) P (s : st FO) fs :
  rnd_ok (tc_rnd c) -> tracker_state c s -> s_icount s = 0 -> video c s fs ->
  (forall f, In f fs -> (f_period f <= P)%Z) ->
  forall D, (forall f, In f fs -> length (f_dets f) <= D) ->
  forall f, In f fs -> length (s_tracked (f_post f)) <= held_calls c P * D /\ length (f_out f) <= S (top_counter c P) * D.
Proof. exact (memory_bounded laws c P s fs). Qed.
Print Assumptions C90_memory_bounded.

(** The bounds are reached: one detection per call, each far from all others, with period 3. *)
Definition far (r : nat) : input QNum := MkInput [(r, ex_det (inject_Z (100 * Z.of_nat r)))] [r] 3 None.
Definition ex90 : list (frame exF) := frames ex_conf ex_start (map far (seq 1 9)).
Example C90_reached :
  video ex_conf ex_start ex90 /\ held_calls ex_conf 3 = 5 /\ top_counter ex_conf 3 = 3 /\
  map (fun f => length (s_tracked (f_post f))) ex90 = [1; 2; 3; 4; 5; 5; 5; 5; 5] /\
  map (fun f => length (f_out f)) ex90 = [1; 2; 3; 4; 4; 4; 4; 4; 4] /\
  (forall f, In f ex90 -> (f_period f <= 3)%Z /\ length (f_dets f) <= 1) /\
  detections (latest (held_calls ex_conf 3) 8 ex90) = 5.
Proof.
  split; [apply frames_video; vm_compute; reflexivity|]. split; [reflexivity|]. split; [reflexivity|].
  split; [vm_compute; reflexivity|]. split; [vm_compute; reflexivity|]. split; [|vm_compute; reflexivity].
  assert (H : forallb (fun f => (f_period f <=? 3)%Z && (length (f_dets f) <=? 1)) ex90 = true) by (vm_compute; reflexivity).
  intros f Hf. apply (proj1 (forallb_forall _ _) H) in Hf. apply andb_prop in Hf as [A B].
  split; [apply Z.leb_le, A|apply Nat.leb_le, B].
Qed.

(** Also with re-identification: reid_hit_counter_max 1, hit_counter_max 3, period 1. *)
Definition near (r : nat) : input QNum := MkInput [(r, ex_det (inject_Z (100 * Z.of_nat r)))] [r] 1 None.
Definition ex90r : list (frame exF) := frames (ex_conf_reid 1) ex_start (map near (seq 1 9)).
Example C90_reid_case :
  video (ex_conf_reid 1) ex_start ex90r /\ held_calls (ex_conf_reid 1) 1 = 7 /\
  map (fun f => length (s_tracked (f_post f))) ex90r = [1; 2; 3; 4; 5; 5; 5; 5; 5].
Proof. split; [apply frames_video; vm_compute; reflexivity|]. split; vm_compute; reflexivity. Qed.

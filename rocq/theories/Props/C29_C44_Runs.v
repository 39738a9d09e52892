(** Relations between two runs: several trackers in one process (C29), fixed and moving cameras (C44). *)
From Coq Require Import ZArith QArith Qcanon Reals Arith List.
From Verif Require Import Model.Num Model.Base Model.Filter Model.Tracker Model.CameraMotion Model.Distances
  Proofs.RingNums Proofs.IsolationProofs Proofs.MovingProofs Proofs.MovingExamples
  Spec.PointSpec Spec.CallSpec Spec.IsolationSpec Spec.MovingSpec Spec.ExampleTracker.
Import ListNotations.
Local Open Scope nat_scope.

(** C29.  [ops] is any program creating detections and calling any trackers; [filter (concerns owner k) ops] is
    what remains of it when only tracker [k] and its detections are kept. *)
Theorem C29_trackers_do_not_interfere : forall (N : Num) (FO : filter_ops N) (conf : nat -> tconf FO)
    (owner : nat -> nat) h dummy k (ops : list (op N)),
  blind_to_gid (conf k) -> Forall (to_owner owner) ops ->
  results conf k (init_world h dummy) ops = results conf k (init_world h dummy) (filter (concerns owner k) ops) /\
  same_tracker owner k (run conf (init_world h dummy) ops)
                       (run conf (init_world h dummy) (filter (concerns owner k) ops)).
Proof. intros N FO conf owner h dummy k ops. exact (trackers_isolated conf owner h dummy k ops). Qed.
Print Assumptions C29_trackers_do_not_interfere.

(** Two trackers with interleaved calls; both return objects. *)
Example C29_case : blind_to_gid ex_conf /\ Forall (to_owner ex_owner) ex_ops /\
  results (fun _ => ex_conf) 1 ex_init ex_ops = [Ret []; Ret [1]] /\
  results (fun _ => ex_conf) 0 ex_init ex_ops = [Ret []; Ret [1; 2]; Ret [1; 2]].
Proof. exact (conj ex_blind_gid (conj ex_owned ex_results)). Qed.

(** The exception: global_id depends on the other trackers (3 in the program above, 1 when tracker 1 runs
    alone). *)
Theorem C29_global_id_depends : exists (N : Num) (FO : filter_ops N) (conf : nat -> tconf FO) owner h dummy k (ops : list (op N)) i,
  blind_to_gid (conf k) /\ Forall (to_owner owner) ops /\
  let w := run conf (init_world h dummy) ops in
  let alone := run conf (init_world h dummy) (filter (concerns owner k) ops) in
  In i (p_tracked (w_trackers w k)) /\ o_gid (p_store (w_trackers w k) i) <> o_gid (p_store (w_trackers alone k) i).
Proof. exact global_id_depends. Qed.
Print Assumptions C29_global_id_depends.

(** C44.  The same shots tracked with the true translations and in fixed coordinates, from a new tracker. *)
Theorem C44_translating_camera : forall (N : Num) (FO : filter_ops N) (c : tconf FO) dim h g dummy xs,
  ring_num N -> 0 < dim -> blind_to_position dim c -> Forall (good_shot dim) xs ->
  let s := MkSt h g (fun _ => dummy) [] 0 0 in
  forall k x, nth_error xs k = Some x -> exists a b,
  nth_error (recording (moving_call c) s xs) k = Some a /\
  nth_error (recording (fixed_call c) s xs) k = Some b /\ alike (sh_offset x) a b.
Proof. exact moving_camera. Qed.
Print Assumptions C44_translating_camera.

(** The distances of norfair depend only on differences of positions. *)
Theorem C44_builtin_distances : forall (FO : filter_ops RNum) dim h w t1 t2,
  scalar_blind dim (frobenius (FO:=FO)) /\ scalar_blind dim (mean_euclidean (FO:=FO)) /\
  scalar_blind dim (mean_manhattan (FO:=FO)) /\ scalar_blind dim (normalized_mean_euclidean_distance (FO:=FO) h w) /\
  scalar_blind dim (keypoints_voting_distance (FO:=FO) t1 t2) /\ vector_blind 2 (@iou RNum).
Proof. exact builtin_blind. Qed.
Print Assumptions C44_builtin_distances.

(** Three frames of two objects, the camera moving by (40, -20) per frame, with re-identification switched on;
    estimates of object 1 in the last frame, relative and absolute. *)
Example C44_case : ring_num QcNum /\ blind_to_position 2 mv_conf /\ Forall (good_shot 2) mv_shots /\
  map snd (recording (moving_call mv_conf) mv_start mv_shots) = [Ret []; Ret [1; 2]; Ret [1; 2]].
Proof. exact (conj QcNum_ring (conj mv_conf_blind (conj mv_good mv_results))). Qed.
Example C44_case_estimates : match nth_error (recording (moving_call mv_conf) mv_start mv_shots) 2 with
  | Some a => (map (map this) (estimate (s_store (fst a) 1)), map (map this) (match get_estimate (s_store (fst a) 1) true with Ret p => p | Raise _ => [] end))
  | None => ([], []) end = ([[81; (-38)]], [[1; 2]])%Q.
Proof. exact mv_estimate. Qed.

(** C09-C12: identities. All theorems are about every reachable state of a process with any number of
    trackers, where calls may also have raised. *)
From Coq Require Import ZArith QArith Bool List Arith Lia.
From Verif Require Import Model.Num Model.Base Model.Filter Model.Tracker Model.Threads
  Spec.IdentitySpec Spec.ThreadSpec Spec.ExampleTracker Proofs.TrackerFrame Proofs.Identity Proofs.IdentityProps
  Proofs.ThreadProofs.
Import ListNotations.
Local Open Scope nat_scope.

(** C09: ids of all objects ever created by a tracker are pairwise different, lie in
    1..total_object_count, and every number in this range is the id of some object. *)
Theorem C09_ids_unique (N : Num) (FO : filter_ops N) conf (w : world FO) k :
  reachable conf w ->
  (forall i j a, created w k i -> created w k j ->
     o_id (obj w k i) = Some a -> o_id (obj w k j) = Some a -> i = j) /\
  (forall i a, created w k i -> o_id (obj w k i) = Some a -> 1 <= a <= total_object_count (focus w k)) /\
  (forall a, 1 <= a <= total_object_count (focus w k) -> exists i, created w k i /\ o_id (obj w k i) = Some a).
Proof. exact (ids_unique conf w k). Qed.
Print Assumptions C09_ids_unique.

(** C09, over time: the id an object has at one moment is never the id of another object later. *)
Theorem C09_ids_never_reused (N : Num) (FO : filter_ops N) conf (w : world FO) k ops i j a :
  reachable conf w -> created w k i -> o_id (obj w k i) = Some a ->
  created (run conf w ops) k j -> o_id (obj (run conf w ops) k j) = Some a -> j = i.
Proof. exact (ids_never_reused conf w k ops i j a). Qed.
Print Assumptions C09_ids_never_reused.

(** C10: global ids, any number of trackers and any interleaving of their calls. *)
Theorem C10_global_ids_unique_partial (N : Num) (FO : filter_ops N) conf (w : world FO) :
  reachable conf w ->
  (forall k i k' i' g, created w k i -> created w k' i' ->
     o_gid (obj w k i) = Some g -> o_gid (obj w k' i') = Some g -> k = k' /\ i = i') /\
  (forall k i g, created w k i -> o_gid (obj w k i) = Some g -> 1 <= g <= w_gcount w) /\
  (forall g, 1 <= g <= w_gcount w -> exists k i, created w k i /\ o_gid (obj w k i) = Some g).
Proof. exact (global_ids_unique conf w). Qed.
Print Assumptions C10_global_ids_unique_partial.

(** C10 is false for trackers run in different threads: two threads can get the same global id, from
    any value of the counter. *)
Theorem C10_threads_refuted :
  forall g, exists schedule a, th_pc (th_run schedule (th_init g)) 0 = PDone a /\
                               th_pc (th_run schedule (th_init g)) 1 = PDone a.
Proof. exact threads_duplicate_ids. Qed.
Print Assumptions C10_threads_refuted.

(** C10 with threads, even for one tracker: two objects of the same tracker can get the same global id
    when a second thread runs another tracker. *)
Theorem C10_same_tracker_refuted trk g0 c0 :
  exists schedule, globals_of 0 (gt_run trk schedule (gt_start g0 c0)) = [S g0; S g0].
Proof. exact (same_tracker_duplicate trk g0 c0). Qed.
Print Assumptions C10_same_tracker_refuted.

(** What holds for any number of threads, calls and any interleaving of their byte-codes, if each tracker
    is used by one thread: the ids of a tracker are consecutive. *)
Theorem C10_threads_ids trk g0 c0 schedule t :
  own_trackers trk ->
  ids_of t (gt_run trk schedule (gt_start g0 c0)) =
  seq (S (c0 (trk t))) (length (ids_of t (gt_run trk schedule (gt_start g0 c0)))).
Proof. exact (fun own => local_ids trk own g0 c0 schedule t). Qed.
Print Assumptions C10_threads_ids.

(** Global ids are new numbers, at most as large as if the calls had not overlapped. *)
Theorem C10_threads_range trk g0 c0 schedule g :
  In g (globals (gt_run trk schedule (gt_start g0 c0))) -> g0 < g <= g0 + begun trk schedule (gt_start g0 c0).
Proof. exact (global_range trk g0 c0 schedule g). Qed.
Print Assumptions C10_threads_range.

(** And if no thread runs while another is inside [get_ids], the global ids are consecutive in the order of
    the calls, so pairwise different. *)
Theorem C10_threads_locked trk g0 c0 schedule :
  locked trk (gt_start g0 c0) schedule ->
  globals (gt_run trk schedule (gt_start g0 c0)) =
  seq (S g0) (length (globals (gt_run trk schedule (gt_start g0 c0)))).
Proof. exact (locked_globals trk g0 c0 schedule). Qed.
Print Assumptions C10_threads_locked.

(** Two threads, three calls, of which the third is not finished. *)
Definition ex10_schedule := [1; 1; 1; 1; 1; 1; 0; 0; 0; 0; 0; 0; 0; 0].
Example ex10_threads :
  own_trackers (fun t => t) /\ locked (fun t => t) (gt_start 7 (fun _ => 2)) ex10_schedule /\
  gt_returned (gt_run (fun t => t) ex10_schedule (gt_start 7 (fun _ => 2))) = [(1, (3, 8)); (0, (3, 9))] /\
  begun (fun t => t) ex10_schedule (gt_start 7 (fun _ => 2)) = 3 /\
  ~ locked (fun t => t) (gt_start 7 (fun _ => 2)) [1; 0].
Proof.
  split; [intros t t' E; exact E|]. split.
  { repeat (apply locked_cons;
      [intros t' Ht; unfold inside; cbn; unfold gt_put; cbn; destruct t' as [|[|t']]; cbn; congruence|]).
    apply locked_nil. }
  split; [reflexivity|]. split; [reflexivity|]. intros L.
  apply (L [1] 0 [] eq_refl 1); [discriminate|]. unfold inside. cbn. discriminate.
Qed.

(** C11: ids are None exactly while the object is initializing; initializing_id is unique. *)
Theorem C11_ids_none_iff_initializing (N : Num) (FO : filter_ops N) conf (w : world FO) k i :
  reachable conf w -> created w k i ->
  (o_id (obj w k i) = None <-> o_initializing (obj w k i) = true) /\
  (o_gid (obj w k i) = None <-> o_initializing (obj w k i) = true) /\
  oc_iid (o_conf (obj w k i)) = i.
Proof. exact (ids_none_iff_initializing conf w k i). Qed.
Print Assumptions C11_ids_none_iff_initializing.

(** C11, over time: once set ids never change, initialization is never undone, initializing_id, label
    and the other attributes given at creation are constant, and the object is still known. *)
Theorem C11_identity_stable (N : Num) (FO : filter_ops N) conf (w : world FO) k ops i :
  reachable conf w -> created w k i ->
  let o := obj w k i in
  let o' := obj (run conf w ops) k i in
  created (run conf w ops) k i /\
  o_conf o' = o_conf o /\
  (o_initializing o = false -> o_initializing o' = false) /\
  (forall a, o_id o = Some a -> o_id o' = Some a) /\
  (forall g, o_gid o = Some g -> o_gid o' = Some g).
Proof. exact (identity_stable conf w k ops i). Qed.
Print Assumptions C11_identity_stable.

(** C12: total_object_count is the number of objects that completed initialization, and never
    decreases. *)
Theorem C12_total_object_count (N : Num) (FO : filter_ops N) conf (w : world FO) k ops :
  reachable conf w ->
  total_object_count (focus w k) = n_initialized w k /\
  total_object_count (focus w k) <= total_object_count (focus (run conf w ops) k).
Proof. exact (total_count conf w k ops). Qed.
Print Assumptions C12_total_object_count.

(* ---- concrete case: two trackers, three initialized objects ---- *)
Example ex_reachable : reachable (fun _ => ex_conf) ex_world.
Proof. exists (fun _ => ex_det 0), ex_dummy, ex_ops. reflexivity. Qed.
Example ex_ids :
  map (fun i => (o_id (obj ex_world 0 i), o_gid (obj ex_world 0 i))) [1; 2] = [(Some 1, Some 1); (Some 2, Some 2)]
  /\ (o_id (obj ex_world 1 1), o_gid (obj ex_world 1 1)) = (Some 1, Some 3)
  /\ p_icount (w_trackers ex_world 0) = 2 /\ p_icount (w_trackers ex_world 1) = 1 /\ w_gcount ex_world = 3.
Proof. vm_compute. auto. Qed.

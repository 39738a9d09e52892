(** Byte-code level model of [_TrackedObjectFactory.get_ids] (tracker.py:427-430) run by several
    threads.  [global_count += 1] is a load, an addition and a store; [return ..., global_count] is
    another load.  A thread switch may happen between any two of them. *)
From Coq Require Import List Arith.
Import ListNotations.

Inductive pc := PLoad | PStore (loaded : nat) | PReturn | PDone (global_id : nat).
Record threads := MkThreads { th_global : nat; th_pc : nat -> pc }.

Definition th_set (t : nat) (p : pc) (s : threads) (g : nat) : threads :=
  MkThreads g (fun k => if Nat.eqb k t then p else th_pc s k).
(** Thread [t] executes its next byte-code. *)
Definition th_step (t : nat) (s : threads) : threads :=
  match th_pc s t with
  | PLoad => th_set t (PStore (th_global s)) s (th_global s)
  | PStore v => th_set t PReturn s (S v)
  | PReturn => th_set t (PDone (th_global s)) s (th_global s)
  | PDone _ => s
  end.
(** A schedule is the sequence of threads that get to run. *)
Definition th_run (schedule : list nat) (s : threads) : threads :=
  fold_left (fun s t => th_step t s) schedule s.
Definition th_init (g : nat) : threads := MkThreads g (fun _ => PLoad).

(** The same with all byte-codes of [get_ids] and any number of calls: thread [t] uses tracker [trk t] and calls
    [get_ids] again and again.  tracker.py:428 is a load and a store of the tracker's [count], line 429 a load and a
    store of [global_count], line 430 a load of each. *)
Inductive gpc := GIdle | GStoreCount (loaded : nat) | GLoadGlobal | GStoreGlobal (loaded : nat) | GReturnCount | GReturnGlobal (id : nat).
Record gthreads := MkGThreads {
  gt_global : nat;
  gt_count : nat -> nat;
  gt_pc : nat -> gpc;
  gt_returned : list (nat * (nat * nat))  (* thread, (id, global_id), in the order of the returns *)
}.
Definition gt_put {A} (k : nat) (v : A) (f : nat -> A) : nat -> A := fun j => if Nat.eqb j k then v else f j.
Definition gt_step (trk : nat -> nat) (s : gthreads) (t : nat) : gthreads :=
  let goto p := gt_put t p (gt_pc s) in
  match gt_pc s t with
  | GIdle => MkGThreads (gt_global s) (gt_count s) (goto (GStoreCount (gt_count s (trk t)))) (gt_returned s)
  | GStoreCount v => MkGThreads (gt_global s) (gt_put (trk t) (S v) (gt_count s)) (goto GLoadGlobal) (gt_returned s)
  | GLoadGlobal => MkGThreads (gt_global s) (gt_count s) (goto (GStoreGlobal (gt_global s))) (gt_returned s)
  | GStoreGlobal v => MkGThreads (S v) (gt_count s) (goto GReturnCount) (gt_returned s)
  | GReturnCount => MkGThreads (gt_global s) (gt_count s) (goto (GReturnGlobal (gt_count s (trk t)))) (gt_returned s)
  | GReturnGlobal a => MkGThreads (gt_global s) (gt_count s) (goto GIdle) (gt_returned s ++ [(t, (a, gt_global s))])
  end.
Definition gt_run (trk : nat -> nat) (schedule : list nat) (s : gthreads) : gthreads := fold_left (gt_step trk) schedule s.
(** No call is under way. *)
Definition gt_start (global : nat) (count : nat -> nat) : gthreads := MkGThreads global count (fun _ => GIdle) [].

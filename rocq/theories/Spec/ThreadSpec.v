(** Vocabulary for ids handed out to several threads. *)
From Coq Require Import List Arith.
From Verif Require Import Model.Threads.
Import ListNotations.

(** Every tracker is used by one thread only. *)
Definition own_trackers (trk : nat -> nat) : Prop := forall t t', trk t = trk t' -> t = t'.
(** The ids and the global ids returned to thread [t], and all global ids, in the order of the returns. *)
Definition ids_of (t : nat) (s : gthreads) : list nat := map (fun r => fst (snd r)) (filter (fun r => Nat.eqb (fst r) t) (gt_returned s)).
Definition globals_of (t : nat) (s : gthreads) : list nat := map (fun r => snd (snd r)) (filter (fun r => Nat.eqb (fst r) t) (gt_returned s)).
Definition globals (s : gthreads) : list nat := map (fun r => snd (snd r)) (gt_returned s).
(** A call of [get_ids] by thread [t] is under way. *)
Definition inside (s : gthreads) (t : nat) : Prop := gt_pc s t <> GIdle.
(** Whenever a thread runs, no other thread is inside [get_ids] (as if a lock protected it). *)
Definition locked (trk : nat -> nat) (s : gthreads) (schedule : list nat) : Prop :=
  forall before t after, schedule = before ++ t :: after -> forall t', t' <> t -> ~ inside (gt_run trk before s) t'.
(** The number of calls of [get_ids] begun in a run. *)
Fixpoint begun (trk : nat -> nat) (schedule : list nat) (s : gthreads) : nat :=
  match schedule with
  | [] => 0
  | t :: l => match gt_pc s t with GIdle => 1 | _ => 0 end + begun trk l (gt_step trk s t)
  end.

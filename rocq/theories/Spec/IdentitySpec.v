(** Vocabulary for histories of a process with several trackers. *)
From Coq Require Import ZArith List Arith.
From Verif Require Import Model.Num Model.Base Model.Filter Model.Tracker.
Import ListNotations.

Section S.
Context {N : Num} {FO : filter_ops N}.

(** [w] is the state of a process after some sequence of user operations: creations of detections and
    [update] calls on any trackers, including calls that raised. *)
Definition reachable (conf : nat -> tconf FO) (w : world FO) : Prop :=
  exists heap dummy ops, w = run conf (init_world heap dummy) ops.

(** Object number [i] of tracker [k] (its initializing_id) has been created, dead or alive. *)
Definition created (w : world FO) (k i : nat) : Prop := 1 <= i <= p_icount (w_trackers w k).
Definition obj (w : world FO) (k i : nat) : tobj FO := p_store (w_trackers w k) i.

(** Number of objects of tracker [k] that completed their initialization, dead or alive. *)
Definition n_initialized (w : world FO) (k : nat) : nat :=
  length (filter (fun i => negb (o_initializing (obj w k i))) (seq 1 (p_icount (w_trackers w k)))).
End S.

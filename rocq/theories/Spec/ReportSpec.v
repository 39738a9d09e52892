(** Which comparisons the report of [compute_metrics] consists of. *)
From Coq Require Import QArith Arith String List.
From Verif Require Import Model.Num Model.Base Model.Metrics.
Import ListNotations.

(** The different names of a list in the order of their first appearance. *)
Fixpoint first_seen (l : list string) : list string :=
  match l with [] => [] | x :: r => x :: filter (fun y => negb (String.eqb y x)) (first_seen r) end.

(** The last position of a name in a list. *)
Definition last_at (names : list string) (name : string) (n : nat) : Prop :=
  nth_error names n = Some name /\ forall n', (n < n')%nat -> nth_error names n' <> Some name.

(** The comparison of a sequence name: the ground truth in the last path with that name against the
    predictions stored at the position of that path. *)
Definition compared {N : Num} {G C : Type} (ground_truth : string -> result G) (compare : G -> list (mrow (N := N)) -> C)
    (s : accs (N := N)) (c : C) (name : string) : Prop :=
  exists n p g m rows, last_at (map basename (ac_paths s)) name n /\ nth_error (ac_paths s) n = Some p /\
    ground_truth p = Ret g /\ nth_error (ac_matrixes s) n = Some m /\ load_motchallenge m (-1)%Q = Ret rows /\
    c = compare g rows.

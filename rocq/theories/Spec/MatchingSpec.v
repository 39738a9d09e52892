(** What a good assignment of detections (rows) to objects (columns) is.  Independent of the model of
    the algorithm: only the table of distances [d], its size and the threshold are mentioned. *)
From Coq Require Import List Arith Bool.
From Verif Require Import Model.Num.
Import ListNotations.

(** A rectangular table with [n] rows and [m] columns. *)
Definition rect {A} (n m : nat) (M : list (list A)) : Prop :=
  length M = n /\ Forall (fun r => length r = m) M.

Section Spec.
Context {N : Num}.

(** No entry is NaN. *)
Definition nan_free (M : list (list (dval N))) : Prop := existsb dis_nan (concat M) = false.

(** [x <= y] for extended numbers that are not NaN. *)
Definition dle (x y : dval N) : Prop := dltb y x = false.
Definition dlt (x y : dval N) : Prop := dltb x y = true.

(** Every index is used at most once, in range, and only pairs strictly below the threshold. *)
Definition one_to_one (pairs : list (nat * nat)) : Prop :=
  NoDup (map fst pairs) /\ NoDup (map snd pairs).
Definition in_range (n m : nat) (pairs : list (nat * nat)) : Prop :=
  forall i j, In (i, j) pairs -> i < n /\ j < m.
Definition below (d : nat -> nat -> dval N) (thr : dval N) (pairs : list (nat * nat)) : Prop :=
  forall i j, In (i, j) pairs -> dlt (d i j) thr.

(** No blocking pair. *)
Definition stable (n m : nat) (d : nat -> nat -> dval N) (thr : dval N) (pairs : list (nat * nat)) : Prop :=
  forall i j, i < n -> j < m -> dlt (d i j) thr ->
    In (i, j) pairs
    \/ (exists j', In (i, j') pairs /\ dle (d i j') (d i j))
    \/ (exists i', In (i', j) pairs /\ dle (d i' j) (d i j)).

(** Pairs come in non-decreasing order of distance. *)
Fixpoint nondecreasing (d : nat -> nat -> dval N) (pairs : list (nat * nat)) : Prop :=
  match pairs with
  | [] => True
  | p :: rest => (forall q, In q rest -> dle (d (fst p) (snd p)) (d (fst q) (snd q))) /\ nondecreasing d rest
  end.

(** No two different cells below the threshold hold equal distances. *)
Definition no_ties (n m : nat) (d : nat -> nat -> dval N) (thr : dval N) : Prop :=
  forall i j i' j', i < n -> j < m -> i' < n -> j' < m ->
    dlt (d i j) thr -> dlt (d i' j') thr -> (i, j) <> (i', j') ->
    dlt (d i j) (d i' j') \/ dlt (d i' j') (d i j).

(** Cell [p] comes before cell [q] when the table is read row by row. *)
Definition before (p q : nat * nat) : Prop := fst p < fst q \/ (fst p = fst q /\ snd p < snd q).

(** The greedy assignment, pair by pair, in the order in which the pairs are made.  [rows] and [cols] are
    the rows and columns still free.  While some free cell is below the threshold, take the smallest one
    (of several equal ones the first, row by row); stop when no free cell is below the threshold. *)
Inductive greedy (d : nat -> nat -> dval N) (thr : dval N) : list nat -> list nat -> list (nat * nat) -> Prop :=
| greedy_stop rows cols :
    (forall i j, In i rows -> In j cols -> ~ dlt (d i j) thr) -> greedy d thr rows cols []
| greedy_pick rows cols i j pairs :
    In i rows -> In j cols -> dlt (d i j) thr ->
    (forall i' j', In i' rows -> In j' cols ->
       dle (d i j) (d i' j') /\ (before (i', j') (i, j) -> dlt (d i j) (d i' j'))) ->
    greedy d thr (remove Nat.eq_dec i rows) (remove Nat.eq_dec j cols) pairs ->
    greedy d thr rows cols ((i, j) :: pairs).

(** [p] is a permutation of [0 .. n-1]. *)
Definition perm_of (n : nat) (p : nat -> nat) : Prop :=
  (forall i, i < n -> p i < n) /\
  (forall i j, i < n -> j < n -> p i = p j -> i = j) /\
  (forall k, k < n -> exists i, i < n /\ p i = k).
End Spec.

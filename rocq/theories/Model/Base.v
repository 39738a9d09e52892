(** Python-level basics shared by all model files. *)
From Coq Require Import ZArith Bool Arith String Ascii List.
From Verif Require Import Model.Num.
Import ListNotations.

(** Exceptions that the modelled code can raise.  [NonTermination] is not a Python exception: it marks
    a call that never returns (an exhausted fuel). *)
Inductive exn : Type :=
| ETypeError | EValueError | EIndexError | EAssertionError | EAttributeError
| EZeroDivisionError | EKeyError | ERuntimeError | ELinAlgError | EImportError | ENonTermination.

Inductive result (A : Type) : Type :=
| Ret : A -> result A
| Raise : exn -> result A.
Arguments Ret {A} _.
Arguments Raise {A} _.

(** Functional update of a heap / object store. *)
Definition upd {A} (h : nat -> A) (r : nat) (v : A) : nat -> A :=
  fun r' => if Nat.eqb r' r then v else h r'.

(** Python label: [None], an int or a string (Detection.label : Hashable, tracker.py:763-765).
    SIMPLIFICATION: other hashables (floats, bools, tuples) are not modelled. *)
Inductive label : Type :=
| LNone : label
| LInt : Z -> label
| LStr : string -> label.

Definition label_eqb (a b : label) : bool :=
  match a, b with
  | LNone, LNone => true
  | LInt x, LInt y => Z.eqb x y
  | LStr x, LStr y => String.eqb x y
  | _, _ => false
  end.

(** Decimal digits, most significant first; [fuel] bounds the number of digits. *)
Definition digit_char (d : Z) : ascii := ascii_of_nat (48 + Z.to_nat d).
Fixpoint pos_digits (fuel : nat) (z : Z) (acc : string) : string :=
  match fuel with
  | O => acc
  | S f => if (z <? 10)%Z then String (digit_char z) acc
           else pos_digits f (z / 10)%Z (String (digit_char (z mod 10)%Z) acc)
  end.
(** Python's [str(int)]. *)
Definition str_of_Z (z : Z) : string :=
  let a := Z.abs z in
  let ds := pos_digits (S (Z.to_nat (Z.log2 a))) a EmptyString in
  if (z <? 0)%Z then String "-"%char ds else ds.

(** Python's [str(label)]. *)
Definition label_str (l : label) : string :=
  match l with
  | LNone => "None"
  | LInt z => str_of_Z z
  | LStr s => s
  end.

Section Points.
Context {N : Num}.

(** [ndarray] of shape (n_points, n_dims). *)
Definition points := list (list N).

(** [arr.flatten()] / [ravel()] (row-major). *)
Definition flatten (p : points) : list N := concat p.

(** [v.reshape(-1, d)] for a vector whose length is a multiple of [d]. *)
Fixpoint chunks_fuel (fuel d : nat) (v : list N) : points :=
  match fuel, v with
  | _, [] => []
  | O, _ => []
  | S f, _ => firstn d v :: chunks_fuel f d (skipn d v)
  end.
Definition reshape_rows (d : nat) (v : list N) : points := chunks_fuel (length v) d v.

End Points.
Arguments points : clear implicits.

(** [np.array([(m,) * d for m in mask]).flatten()]: each element repeated d times in place
    (tracker.py:641-643, 662-664). *)
Definition repeat_each {A} (d : nat) (mask : list A) : list A := flat_map (fun m => repeat m d) mask.
(** [np.hstack((mask,) * d)]: the whole mask d times (tracker.py:665-667). *)
Definition tile {A} (d : nat) (mask : list A) : list A := concat (repeat mask d).

Definition map2 {A B C} (f : A -> B -> C) (a : list A) (b : list B) : list C :=
  map (fun p => f (fst p) (snd p)) (combine a b).

(** [dst[mask] = src[mask]] for arrays of equal length. *)
Fixpoint mask_assign {A} (mask : list bool) (src dst : list A) : list A :=
  match mask, src, dst with
  | m :: mask', s :: src', d :: dst' => (if m then s else d) :: mask_assign mask' src' dst'
  | _, _, _ => dst
  end.
(** [dst[mask] = v] for a scalar [v]. *)
Fixpoint mask_fill {A} (mask : list bool) (v : A) (dst : list A) : list A :=
  match mask, dst with
  | m :: mask', d :: dst' => (if m then v else d) :: mask_fill mask' v dst'
  | _, _ => dst
  end.

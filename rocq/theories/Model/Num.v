(** Numbers used by the model.

    norfair computes with numpy float64/float32 numbers.  The model is written once over a record of
    operations [Num]; [QNum] (rationals) makes it executable, [RNum] (real numbers) carries the
    numeric theorems.  SIMPLIFICATION: 64 bit rounding is not modelled (exact arithmetic). *)
From Coq Require Import QArith Qabs ZArith Reals Bool List.
Import ListNotations.

Record Num : Type := MkNum {
  num :> Type;
  n0 : num;
  n1 : num;
  nadd : num -> num -> num;
  nsub : num -> num -> num;
  nmul : num -> num -> num;
  ndiv : num -> num -> num;
  nltb : num -> num -> bool;   (* Python  x < y  *)
  neqb : num -> num -> bool;   (* Python  x == y *)
  nofQ : Q -> num              (* numeric literals *)
}.

Arguments n0 {_}.
Arguments n1 {_}.
Arguments nadd {_} _ _.
Arguments nsub {_} _ _.
Arguments nmul {_} _ _.
Arguments ndiv {_} _ _.
Arguments nltb {_} _ _.
Arguments neqb {_} _ _.
Arguments nofQ {_} _.

Declare Scope num_scope.
Delimit Scope num_scope with n.
Infix "+" := nadd : num_scope.
Infix "-" := nsub : num_scope.
Infix "*" := nmul : num_scope.
Infix "/" := ndiv : num_scope.
Infix "<?" := nltb : num_scope.
Infix "=?" := neqb : num_scope.

(** Executable instance. *)
Definition Qltb (x y : Q) : bool := negb (Qle_bool y x).
Definition QNum : Num :=
  MkNum Q 0%Q 1%Q
        (fun x y => Qred (x + y)) (fun x y => Qred (x - y))
        (fun x y => Qred (x * y)) (fun x y => Qred (x / y))
        Qltb Qeq_bool (fun q => q).

(** Instance for the numeric theorems. *)
Definition Rltb (x y : R) : bool := if Rlt_dec x y then true else false.
Definition Reqb (x y : R) : bool := if Req_EM_T x y then true else false.
Definition RNum : Num :=
  MkNum R 0%R 1%R Rplus Rminus Rmult Rdiv Rltb Reqb Q2R.

(** Python's  max(x, y) / min(x, y)  keep the first argument unless the second is strictly
    larger / smaller; numpy's maximum/minimum agree on numbers. *)
Definition nmax {N : Num} (x y : N) : N := if nltb x y then y else x.
Definition nmin {N : Num} (x y : N) : N := if nltb y x then y else x.

Definition nsum {N : Num} (l : list N) : N := fold_right nadd n0 l.

(** Order laws; proved for both instances in [Proofs/NumLaws.v]. *)
Record NumLaws (N : Num) : Prop := {
  law_lt_irrefl : forall x : N, nltb x x = false;
  law_lt_trans : forall x y z : N, nltb x y = true -> nltb y z = true -> nltb x z = true;
  law_lt_cotrans : forall x y z : N, nltb x y = true -> nltb x z = true \/ nltb z y = true;
  law_lt_succ : forall x : N, nltb (nadd x n1) x = false
}.

(** Extended numbers: what a distance function may return and what a distance matrix holds
    (numpy floats: NaN, -inf, finite, +inf). *)
Inductive dval (N : Num) : Type :=
| DNaN : dval N
| DNInf : dval N
| DFin : N -> dval N
| DPInf : dval N.
Arguments DNaN {N}.
Arguments DNInf {N}.
Arguments DFin {N} _.
Arguments DPInf {N}.

(** IEEE comparison  x < y  (false as soon as one side is NaN). *)
Definition dltb {N : Num} (x y : dval N) : bool :=
  match x, y with
  | DNaN, _ => false
  | _, DNaN => false
  | DNInf, DNInf => false
  | DNInf, _ => true
  | _, DNInf => false
  | DFin a, DFin b => nltb a b
  | DFin _, DPInf => true
  | DPInf, _ => false
  end.

Definition dis_nan {N : Num} (x : dval N) : bool := match x with DNaN => true | _ => false end.

(** Truth value of a float (numpy [.any()]): everything except zero is true. *)
Definition dtruth {N : Num} (x : dval N) : bool :=
  match x with DFin a => negb (neqb a n0) | _ => true end.

(** [distance_threshold + 1]. *)
Definition dsucc {N : Num} (x : dval N) : dval N :=
  match x with DFin a => DFin (nadd a n1) | other => other end.

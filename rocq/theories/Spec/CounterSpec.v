(** The hit counter of an object as a function of the calls it was matched in. *)
From Coq Require Import ZArith List Arith.
From Verif Require Import Model.Num Model.Base Model.Filter Model.Tracker Spec.CallSpec.
Import ListNotations.
Local Open Scope Z_scope.

(** Hit counter after the calls [fs], starting from [h]: every call subtracts 1; a match adds twice the period and cuts
    at [cap]. *)
Definition counter_after {N : Num} {FO : filter_ops N} (cap : Z) (i : nat) (h : Z) (fs : list (CallSpec.frame FO)) : Z :=
  fold_left (fun h f => if in_dec Nat.eq_dec (last_det (f_post f) i) (f_dets f) then Z.min (h - 1 + 2 * f_period f) cap else h - 1) fs h.

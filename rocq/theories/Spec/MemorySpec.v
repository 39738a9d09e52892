(** Vocabulary for the bound on the number of objects a tracker holds. *)
From Coq Require Import ZArith List Arith.
From Verif Require Import Model.Num Model.Base Model.Filter Model.Tracker Spec.CallSpec.
Import ListNotations.

Section S.
Context {N : Num} {FO : filter_ops N}.

(** The largest hit_counter of any object, when no call has a period above [P]. *)
Definition top_counter (c : tconf FO) (P : Z) : nat :=
  Z.to_nat (Z.max (tc_hit_counter_max c) (match tc_reid_distance c with None => P | Some _ => Z.max P (2 * P) end)).

(** For how many calls an object can be held without being matched again, the call that matched it last
    included.  The re-identification countdown, if there is one, is added. *)
Definition held_calls (c : tconf FO) (P : Z) : nat :=
  top_counter c P + 2 + match tc_reid_max c with None => 0 | Some r => Z.to_nat (r + 1) end.

(** Call number [n] and the calls before it, [k] calls in all (or fewer, at the start). *)
Definition latest (k n : nat) (fs : list (frame FO)) : list (frame FO) := skipn (S n - k) (firstn (S n) fs).

(** The number of detections passed to these calls. *)
Definition detections (fs : list (frame FO)) : nat := list_sum (map (fun f => length (f_dets f)) fs).
End S.

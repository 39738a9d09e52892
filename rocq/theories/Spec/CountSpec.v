(** Objects that are initialized and merged into another object in the same call. *)
From Coq Require Import ZArith List Arith.
From Verif Require Import Model.Num Model.Base Model.Filter Model.Tracker Spec.CallSpec.
Import ListNotations.

Section S.
Context {N : Num} {FO : filter_ops N}.

(** In the call [f] object [i] stops initializing, getting its ids, and disappears, because another object takes over
    its detection and its filter. *)
Definition absorbed (f : CallSpec.frame FO) (i : nat) : Prop :=
  tracked (f_pre f) i /\ o_initializing (s_store (f_pre f) i) = true /\ o_initializing (s_store (f_post f) i) = false /\
  ~ tracked (f_post f) i /\
  exists j, j <> i /\ tracked (f_pre f) j /\ tracked (f_post f) j /\
    last_det (f_post f) j = last_det (f_post f) i /\ In (last_det (f_post f) i) (f_dets f) /\
    o_filter (s_store (f_post f) j) = o_filter (s_store (f_post f) i).

(** The different objects returned in these calls. *)
Definition returned (fs : list (CallSpec.frame FO)) : list nat := nodup Nat.eq_dec (concat (map f_out fs)).
End S.

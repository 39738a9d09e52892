(** The table printed by print_objects_as_table for objects of a tracker. *)
From Coq Require Import ZArith List.
From Verif Require Import Model.Num Model.Base Model.Filter Model.Tracker Model.Video Spec.CallSpec Spec.PhasesSpec.

Section S.
Context {N : Num} {FO : filter_ops N}.
(** An object as the table shows it: id, age, hit counter, last distance and initializing id. *)
Definition table_entry (s : st FO) (i : nat) : table_object (dval N) :=
  MkTO (o_id (s_store s i)) (o_age (s_store s i)) (hit_counter s i) (last_distance s i) i.
End S.

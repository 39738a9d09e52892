(** Vocabulary of C105: competing assignments and a tracker with another distance_threshold. *)
From Coq Require Import List Arith.
From Verif Require Import Model.Num Model.Base Model.Matching Model.Filter Model.Tracker Spec.MatchingSpec.
Import ListNotations.

(** Any way to pair rows with columns one-to-one, using only cells below the threshold. *)
Definition assignment {N : Num} (n m : nat) (d : nat -> nat -> dval N) (thr : dval N) (Q : list (nat * nat)) : Prop :=
  one_to_one Q /\ in_range n m Q /\ below d thr Q.

(** The same tracker with another distance_threshold. *)
Definition with_threshold {N : Num} {FO : filter_ops N} (c : tconf FO) (t : dval N) : tconf FO :=
  MkTconf (tc_distance c) t (tc_hit_counter_max c) (tc_delay c) (tc_pointwise_max c) (tc_det_thr c) (tc_past_len c)
    (tc_reid_distance c) (tc_reid_threshold c) (tc_reid_max c) (tc_rnd c).

(** Sum of the distances of the pairs, for a table of numbers. *)
Definition total {N : Num} (w : list (list N)) (P : list (nat * nat)) : N :=
  nsum (map (fun q => nth (snd q) (nth (fst q) w []) n0) P).

(** The matching loop on float32 matrices. *)
From Coq Require Import ZArith QArith Bool List Arith.
From Verif Require Import Model.Num Model.Matching Model.Float32 Spec.MatchingSpec
  Proofs.NumLaws Proofs.MatchingProofs.
Import ListNotations.
Local Open Scope nat_scope.

Lemma float32_divergence :
  exists (thr : dval QNum) (M : matrix QNum),
    rect 1 1 M /\ nan_free M /\ forall rounds, match_loop rounds (round32 (dsucc thr)) thr M [] [] = None.
Proof.
  exists (DFin (33554433%Q : QNum)), [[DFin (0%Q : QNum)]].
  assert (H : rect 1 1 [[DFin (0%Q : QNum)]]) by (split; [reflexivity|repeat constructor]).
  split; [exact H|]. split; [reflexivity|]. intros rounds.
  apply (match_loop_diverges QNum_laws rounds 1 1); [reflexivity|exact H|reflexivity|].
  exists 0, 0. repeat split; auto.
Qed.

(** Number systems with the laws of a ring: the real numbers, and canonical rationals for examples. *)
From Coq Require Import QArith Qcanon Reals Ring Bool List Lra.
From Verif Require Import Model.Num Spec.PointSpec Proofs.NumLaws.
Import ListNotations.

Lemma RNum_ring : ring_num RNum.
Proof. constructor; cbn; intros; ring. Qed.

(** Rationals in lowest terms ([Qc] of the standard library), where equality is Leibniz equality. *)
Definition QcNum : Num :=
  MkNum Qc (Q2Qc 0) (Q2Qc 1) Qcplus Qcminus Qcmult Qcdiv (fun x y => Qltb (this x) (this y)) (fun x y => Qeq_bool (this x) (this y)) Q2Qc.
Lemma QcNum_ring : ring_num QcNum.
Proof. constructor; cbn; intros; ring. Qed.
Lemma QcNum_laws : NumLaws QcNum.
Proof.
  constructor; cbn.
  - intros x. apply (law_lt_irrefl _ QNum_laws).
  - intros x y z. apply (law_lt_trans _ QNum_laws).
  - intros x y z. apply (law_lt_cotrans _ QNum_laws).
  - intros x. exact (law_lt_succ _ QNum_laws (this x)).
Qed.

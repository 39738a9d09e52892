(** Order laws of the two number systems, and of extended numbers. *)
From Coq Require Import QArith Reals Lra Lia Bool List.
From Verif Require Import Model.Num.
Import ListNotations.

Lemma Qltb_lt x y : Qltb x y = true <-> (x < y)%Q.
Proof.
  unfold Qltb. rewrite negb_true_iff. split.
  - intros H. apply Qnot_le_lt. intros L. apply Qle_bool_iff in L. congruence.
  - intros H. destruct (Qle_bool y x) eqn:E; [| reflexivity].
    apply Qle_bool_iff in E. exfalso. apply (Qlt_not_le x y); assumption.
Qed.
Lemma Qltb_ge x y : Qltb x y = false <-> (y <= x)%Q.
Proof.
  unfold Qltb. rewrite negb_false_iff. apply Qle_bool_iff.
Qed.
Lemma Rltb_lt x y : Rltb x y = true <-> (x < y)%R.
Proof. unfold Rltb. destruct (Rlt_dec x y); split; intros; try lra; try congruence; reflexivity. Qed.
Lemma Rltb_ge x y : Rltb x y = false <-> (y <= x)%R.
Proof. unfold Rltb. destruct (Rlt_dec x y); split; intros; try lra; try congruence; reflexivity. Qed.
Lemma Reqb_eq x y : Reqb x y = true <-> x = y.
Proof. unfold Reqb. destruct (Req_EM_T x y); split; intros; congruence. Qed.
Lemma Reqb_neq x y : Reqb x y = false <-> x <> y.
Proof. unfold Reqb. destruct (Req_EM_T x y); split; intros; congruence. Qed.

Lemma Qsucc_ge (x : Q) : Qltb (Qred (x + 1)) x = false.
Proof.
  apply Qltb_ge. pose proof (Qred_correct (x + 1)) as E. rewrite E.
  rewrite <- (Qplus_0_r x) at 1. apply Qplus_le_compat; [apply Qle_refl|]. discriminate.
Qed.

Lemma QNum_laws : NumLaws QNum.
Proof.
  constructor; cbn.
  - intros x. apply Qltb_ge. apply Qle_refl.
  - intros x y z. rewrite !Qltb_lt. apply Qlt_trans.
  - intros x y z. rewrite !Qltb_lt. intros H.
    destruct (Qlt_le_dec x z); [left; assumption|right].
    eapply Qle_lt_trans; eassumption.
  - exact Qsucc_ge.
Qed.

Lemma RNum_laws : NumLaws RNum.
Proof.
  constructor; cbn.
  - intros x. apply Rltb_ge. lra.
  - intros x y z. rewrite !Rltb_lt. lra.
  - intros x y z. rewrite !Rltb_lt. intros. destruct (Rlt_dec x z); [left|right]; lra.
  - intros x. apply Rltb_ge. lra.
Qed.

Section DLaws.
Context {N : Num} (L : NumLaws N).

Lemma dltb_irrefl (x : dval N) : dltb x x = false.
Proof. destruct x; cbn; auto. apply (law_lt_irrefl N L). Qed.
Lemma dltb_trans (x y z : dval N) : dltb x y = true -> dltb y z = true -> dltb x z = true.
Proof. destruct x, y, z; cbn; auto; try discriminate. apply (law_lt_trans N L). Qed.
Lemma dltb_asym (x y : dval N) : dltb x y = true -> dltb y x = false.
Proof.
  intros H. destruct (dltb y x) eqn:E; [|reflexivity].
  pose proof (dltb_irrefl x).
  pose proof (dltb_trans x y x H E). congruence.
Qed.
(** cotransitivity needs the middle element not to be NaN *)
Lemma dltb_cotrans (x y z : dval N) :
  dis_nan z = false -> dltb x y = true -> dltb x z = true \/ dltb z y = true.
Proof.
  destruct x, y, z; cbn; auto; try discriminate. intros _. apply (law_lt_cotrans N L).
Qed.
Lemma dle_lt_trans (x y z : dval N) :
  dis_nan x = false -> dltb y x = false -> dltb y z = true -> dltb x z = true.
Proof.
  intros Hx H1 H2. destruct (dltb_cotrans y z x Hx H2); [congruence|assumption].
Qed.
Lemma dlt_le_trans (x y z : dval N) :
  dis_nan z = false -> dltb x y = true -> dltb z y = false -> dltb x z = true.
Proof.
  intros Hx H1 H2. destruct (dltb_cotrans x y z Hx H1); [assumption|congruence].
Qed.
Lemma dle_trans (x y z : dval N) :
  dis_nan y = false -> dltb y x = false -> dltb z y = false -> dltb z x = false.
Proof.
  intros Hy H1 H2. destruct (dltb z x) eqn:E; [|reflexivity].
  destruct (dltb_cotrans z x y Hy E); congruence.
Qed.
Lemma dltb_not_nan (x y : dval N) : dltb x y = true -> dis_nan x = false /\ dis_nan y = false.
Proof. destruct x, y; cbn; auto; discriminate. Qed.
Lemma dsucc_ge (x : dval N) : dltb (dsucc x) x = false.
Proof. destruct x; cbn; auto. apply (law_lt_succ N L). Qed.
End DLaws.

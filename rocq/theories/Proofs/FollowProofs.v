(** C85: the error of the Kalman filter for a coordinate with constant velocity tends to zero. *)
From Coq Require Import Reals Lra Lia Psatz Bool List Arith.
From Verif Require Import Model.Num Model.Base Model.Filter Model.KalmanMatrix Spec.KalmanSpec.
From Verif Require Import Proofs.MatrixProofs Proofs.KalmanProofs.
Import ListNotations.
Local Open Scope R_scope.

(** Errors of position and velocity, and the covariance. *)
Record err := MkErr { e1 : R; e2 : R; ea : R; eb : R; ed : R }.
Definition det (x : err) : R := ea x * ed x - eb x * eb x.
Definition num (x : err) : R := ed x * (e1 x * e1 x) - 2 * eb x * (e1 x * e2 x) + ea x * (e2 x * e2 x).
Definition V (x : err) : R := num x / det x.
Definition epd (x : err) : Prop := 0 < ea x /\ 0 < ed x /\ 0 < det x.

Lemma num_nonneg x : epd x -> 0 <= num x.
Proof.
  intros (A & B & C). unfold num, det in *. apply (Rmult_le_reg_l (ea x)); [auto|]. rewrite Rmult_0_r.
  replace (ea x * (ed x * (e1 x * e1 x) - 2 * eb x * (e1 x * e2 x) + ea x * (e2 x * e2 x)))
    with ((ea x * e2 x - eb x * e1 x) * (ea x * e2 x - eb x * e1 x) + (e1 x * e1 x) * (ea x * ed x - eb x * eb x)) by ring.
  pose proof (Rle_0_sqr (ea x * e2 x - eb x * e1 x)) as X. pose proof (Rle_0_sqr (e1 x)) as Y. unfold Rsqr in *.
  assert (0 <= e1 x * e1 x * (ea x * ed x - eb x * eb x)) by (apply Rmult_le_pos; lra). lra.
Qed.
Lemma V_nonneg x : epd x -> 0 <= V x.
Proof. intros P. pose proof (num_nonneg x P). destruct P as (_ & _ & C). unfold V, Rdiv. apply Rmult_le_pos; auto. left. apply Rinv_0_lt_compat. auto. Qed.
Lemma div_le a b c d : 0 < b -> 0 < d -> a * d <= c * b -> a / b <= c / d.
Proof.
  intros B D H. apply (Rmult_le_reg_r (b * d)); [apply Rmult_lt_0_compat; auto|].
  replace (a / b * (b * d)) with (a * d) by (field; lra). replace (c / d * (b * d)) with (c * b) by (field; lra). exact H.
Qed.
Lemma e1_bound x : epd x -> e1 x * e1 x <= ea x * V x.
Proof.
  intros (A & B & C). unfold V. replace (ea x * (num x / det x)) with ((ea x * num x) / det x) by (field; lra).
  replace (e1 x * e1 x) with ((e1 x * e1 x) / 1) by field. apply div_le; [lra|auto|].
  pose proof (Rle_0_sqr (ea x * e2 x - eb x * e1 x)) as X. unfold Rsqr, num, det in *. lra.
Qed.

(** Adding noise to one of the variances does not increase [V]. *)
Lemma V_noise1 x q : epd x -> 0 <= q -> let y := MkErr (e1 x) (e2 x) (ea x + q) (eb x) (ed x) in epd y /\ V y <= V x.
Proof.
  destruct x as [w1 w2 a b d]. unfold epd, V, num, det. cbn. intros (A & B & C) Q.
  assert (0 <= q * d) by (apply Rmult_le_pos; lra).
  assert (P : 0 < (a + q) * d - b * b) by lra.
  split; [split; [lra|split; [lra|exact P]]|]. apply div_le; auto.
  pose proof (Rle_0_sqr (d * w1 - b * w2)) as X. unfold Rsqr in X. assert (Y := Rmult_le_pos _ _ Q X).
  apply Rminus_le. match goal with |- ?l <= 0 => replace l with (- (q * ((d * w1 - b * w2) * (d * w1 - b * w2)))) by ring end. lra.
Qed.
Lemma V_noise2 x q : epd x -> 0 <= q -> let y := MkErr (e1 x) (e2 x) (ea x) (eb x) (ed x + q) in epd y /\ V y <= V x.
Proof.
  destruct x as [w1 w2 a b d]. unfold epd, V, num, det. cbn. intros (A & B & C) Q.
  assert (0 <= a * q) by (apply Rmult_le_pos; lra).
  assert (P : 0 < a * (d + q) - b * b) by lra.
  split; [split; [lra|split; [lra|exact P]]|]. apply div_le; auto.
  pose proof (Rle_0_sqr (a * w2 - b * w1)) as X. unfold Rsqr in X. assert (Y := Rmult_le_pos _ _ Q X).
  apply Rminus_le. match goal with |- ?l <= 0 => replace l with (- (q * ((a * w2 - b * w1) * (a * w2 - b * w1)))) by ring end. lra.
Qed.

Section Steps.
Variables qp qv r : R.
Hypothesis Hqp : 0 <= qp.
Hypothesis Hqv : 0 <= qv.
Hypothesis Hr : 0 < r.

Definition e_pred (x : err) : err :=
  MkErr (e1 x + e2 x) (e2 x) (ea x + 2 * eb x + ed x + qp) (eb x + ed x) (ed x + qv).
Definition e_corr (x : err) : err :=
  let S := ea x + r in
  MkErr (r / S * e1 x) (e2 x - eb x / S * e1 x) (ea x * r / S) (eb x * r / S) (ed x - eb x * eb x / S).
Definition e_step (x : err) : err := e_corr (e_pred x).

Lemma V_move x : epd x -> let y := MkErr (e1 x + e2 x) (e2 x) (ea x + 2 * eb x + ed x) (eb x + ed x) (ed x) in epd y /\ V y = V x.
Proof.
  destruct x as [w1 w2 a b d]. unfold epd, V, num, det. cbn. intros (A & B & C).
  assert (D : (a + 2 * b + d) * d - (b + d) * (b + d) = a * d - b * b) by ring.
  split.
  - split; [|split; [auto|lra]].
    apply (Rmult_lt_reg_l d); [auto|]. rewrite Rmult_0_r. pose proof (Rle_0_sqr (b + d)) as X. unfold Rsqr in X. lra.
  - rewrite D. f_equal. ring.
Qed.
Lemma V_pred x : epd x -> epd (e_pred x) /\ V (e_pred x) <= V x.
Proof.
  intros P. destruct (V_move x P) as [P1 E1]. cbv zeta in *. destruct (V_noise1 _ qp P1 Hqp) as [P2 E2]. cbv zeta in *.
  destruct (V_noise2 _ qv P2 Hqv) as [P3 E3]. cbv zeta in *. cbn [Proofs.FollowProofs.e1 Proofs.FollowProofs.e2 ea eb ed] in *.
  split; [exact P3|]. unfold e_pred. lra.
Qed.
Lemma V_corr x : epd x -> epd (e_corr x) /\ V (e_corr x) = V x - e1 x * e1 x / (ea x + r).
Proof.
  destruct x as [w1 w2 a b d]. unfold epd, V, num, det, e_corr. cbn. intros (A & B & C).
  assert (S0 : 0 < a + r) by lra.
  assert (D : a * r / (a + r) * (d - b * b / (a + r)) - b * r / (a + r) * (b * r / (a + r)) = (a * d - b * b) * (r / (a + r))) by (field; lra).
  assert (RS : 0 < r / (a + r)) by (apply Rdiv_lt_0_compat; lra).
  split.
  - split; [|split].
    + unfold Rdiv. apply Rmult_lt_0_compat; [apply Rmult_lt_0_compat; lra|apply Rinv_0_lt_compat; lra].
    + replace (d - b * b / (a + r)) with ((a * d - b * b + d * r) / (a + r)) by (field; lra).
      assert (0 < d * r) by (apply Rmult_lt_0_compat; lra). apply Rdiv_lt_0_compat; lra.
    + rewrite D. apply Rmult_lt_0_compat; auto.
  - rewrite D. field. split; [lra|split; lra].
Qed.
Lemma V_step x : epd x -> epd (e_step x) /\ V (e_step x) <= V x - (e1 x + e2 x) * (e1 x + e2 x) / (ea (e_pred x) + r).
Proof.
  intros P. destruct (V_pred x P) as [P1 L1]. destruct (V_corr _ P1) as [P2 L2]. split; [exact P2|]. unfold e_step. rewrite L2. cbn in *. lra.
Qed.

(** Bounds of the variances. *)
Lemma ea_bound x : epd x -> ea (e_step x) <= r.
Proof.
  intros P. destruct (V_pred x P) as [(A & _) _]. unfold e_step, e_corr. cbn [ea]. set (a := ea (e_pred x)) in *.
  replace r with (r / 1) at 3 by field. apply div_le; [lra|lra|]. pose proof (Rle_0_sqr r) as X. unfold Rsqr in X. lra.
Qed.
Lemma half x : epd x -> ed x / 2 - ea x <= ea x + 2 * eb x + ed x.
Proof.
  (* (d/2 + 2b + 2a) >= 0: multiply by d: d^2/2 + 2bd + 2ad >= d^2/2 + 2bd + 2b^2 >= 0 *)
  intros (A & B & C). unfold det in C. apply Rminus_le. apply (Rmult_le_reg_l (ed x)); [auto|]. rewrite Rmult_0_r.
  pose proof (Rle_0_sqr (ed x / 2 + eb x)) as X. unfold Rsqr in X. lra.
Qed.
Definition dmax : R := qv + 2 * (2 * r + qp).
Lemma ed_bound x : epd x -> ea x <= r -> ed (e_step x) <= dmax.
Proof.
  intros P Ha. pose proof (half x P) as Hh. destruct (V_pred x P) as [(A & _) _]. destruct P as (P1 & P2 & P3). unfold det in P3.
  unfold e_step, e_corr, e_pred in *. cbn in *. set (S := ea x + 2 * eb x + ed x + qp + r).
  assert (HS : ed x / 2 <= S) by (unfold S; lra). assert (S0 : 0 < S) by lra.
  replace (ed x + qv - (eb x + ed x) * (eb x + ed x) / S) with (qv + (ea x * ed x - eb x * eb x + ed x * (qp + r)) / S) by (unfold S; field; fold S; lra).
  unfold dmax. apply Rplus_le_compat_l. replace (2 * (2 * r + qp)) with (2 * (2 * r + qp) / 1) by field. apply div_le; [auto|lra|].
  pose proof (Rle_0_sqr (eb x)) as X. unfold Rsqr in X.
  assert (Y : ea x * ed x <= r * ed x) by (apply Rmult_le_compat_r; lra).
  assert (Z : (2 * r + qp) * (ed x / 2) <= (2 * r + qp) * S) by (apply Rmult_le_compat_l; lra). lra.
Qed.
Definition smax : R := 2 * (r + dmax) + qp + r.
Lemma S_bound x : epd x -> ea x <= r -> ed x <= dmax -> ea (e_pred x) + r <= smax.
Proof.
  intros (A & B & C) Ha Hd. unfold det in C. unfold e_pred, smax. cbn [ea].
  assert (2 * eb x <= ea x + ed x); [|lra].
  destruct (Rle_lt_dec (2 * eb x) (ea x + ed x)) as [L|L]; auto. exfalso.
  assert ((ea x + ed x) * (ea x + ed x) < (2 * eb x) * (2 * eb x)) by (apply Rmult_le_0_lt_compat; lra).
  pose proof (Rle_0_sqr (ea x - ed x)) as X. unfold Rsqr in X. lra.
Qed.

(** The sequence of errors. *)
Variable x0 : err.
Hypothesis P0 : epd x0.
Fixpoint seqE (n : nat) : err := match n with O => x0 | S n => e_step (seqE n) end.
Lemma seq_pd n : epd (seqE n).
Proof. induction n; cbn; auto. apply V_step, IHn. Qed.
Lemma seq_V n : V (seqE (S n)) <= V (seqE n) - (e1 (seqE n) + e2 (seqE n)) * (e1 (seqE n) + e2 (seqE n)) / (ea (e_pred (seqE n)) + r).
Proof. cbn [seqE]. apply V_step, seq_pd. Qed.
Lemma S_pos n : 0 < ea (e_pred (seqE n)) + r.
Proof. destruct (V_pred _ (seq_pd n)) as [(A & _) _]. lra. Qed.
Lemma seq_dec n : V (seqE (S n)) <= V (seqE n).
Proof.
  pose proof (seq_V n) as H. pose proof (Rle_0_sqr (e1 (seqE n) + e2 (seqE n))) as X. unfold Rsqr in X.
  assert (0 <= (e1 (seqE n) + e2 (seqE n)) * (e1 (seqE n) + e2 (seqE n)) / (ea (e_pred (seqE n)) + r)); [|lra].
  unfold Rdiv. apply Rmult_le_pos; auto. left. apply Rinv_0_lt_compat, S_pos.
Qed.
Lemma seq_V0 n : V (seqE n) <= V x0.
Proof. induction n; [cbn; lra|]. pose proof (seq_dec n). lra. Qed.
Lemma seq_S n : ea (e_pred (seqE (S (S n)))) + r <= smax.
Proof.
  apply S_bound; [apply seq_pd| |].
  - apply (ea_bound (seqE (S n))), seq_pd.
  - apply (ed_bound (seqE (S n))); [apply seq_pd|]. apply (ea_bound (seqE n)), seq_pd.
Qed.
Lemma smax_pos : 0 < smax.
Proof. unfold smax, dmax. lra. Qed.

Lemma innovation_small eps : 0 < eps -> exists n0, forall n, (n0 <= n)%nat -> Rabs (e1 (seqE n) + e2 (seqE n)) <= eps.
Proof.
  intros He. destruct (decreasing_cv (fun n => V (seqE n))) as [l Hl].
  - intros n. apply seq_dec.
  - exists 0. intros y [n ->]. unfold opp_seq. pose proof (V_nonneg _ (seq_pd n)). lra.
  - assert (E : 0 < eps * eps / smax / 2).
    { unfold Rdiv. apply Rmult_lt_0_compat; [|lra]. apply Rmult_lt_0_compat; [apply Rmult_lt_0_compat; lra|apply Rinv_0_lt_compat, smax_pos]. }
    destruct (Hl _ E) as [N HN]. exists (S (S N)). intros n Hn. destruct n as [|[|n]]; try lia.
    set (m := S (S n)) in *. pose proof (HN m ltac:(lia)) as A. pose proof (HN (S m) ltac:(lia)) as B.
    unfold R_dist in A, B. apply Rabs_def2 in A. apply Rabs_def2 in B. pose proof (seq_V m) as H. pose proof (seq_S n) as HS. fold m in HS.
    set (u := e1 (seqE m) + e2 (seqE m)) in *. set (Sg := ea (e_pred (seqE m)) + r) in *. pose proof (S_pos m) as Sp. fold Sg in Sp.
    assert (U : u * u / Sg < eps * eps / smax) by lra.
    assert (U2 : u * u < eps * eps).
    { apply (Rmult_lt_compat_r Sg) in U; [|auto]. replace (u * u / Sg * Sg) with (u * u) in U by (field; lra).
      assert (eps * eps / smax * Sg <= eps * eps); [|lra].
      pose proof smax_pos as Sm. replace (eps * eps / smax * Sg) with (eps * eps * (Sg / smax)) by (field; lra).
      rewrite <- (Rmult_1_r (eps * eps)) at 2. apply Rmult_le_compat_l; [apply Rmult_le_pos; lra|].
      replace 1 with (1 / 1) by field. apply div_le; lra. }
    apply Rsqr_incr_0_var; [|lra]. rewrite <- Rsqr_abs. unfold Rsqr. lra.
Qed.

Theorem errors_vanish eps : 0 < eps -> exists n0, forall n, (n0 <= n)%nat -> Rabs (e1 (seqE n)) <= eps /\ Rabs (e2 (seqE n)) <= eps.
Proof.
  intros He. destruct (innovation_small (eps / 2)) as [n0 H]; [lra|]. exists (S n0). intros n Hn. destruct n as [|n]; [lia|].
  assert (A : Rabs (e1 (seqE (S n))) <= eps / 2).
  { change (e1 (seqE (S n))) with (r / (ea (e_pred (seqE n)) + r) * (e1 (seqE n) + e2 (seqE n))). pose proof (S_pos n) as Sp. pose proof (H n ltac:(lia)) as G. destruct (V_pred _ (seq_pd n)) as [(Ap & _) _].
    rewrite Rabs_mult. assert (Q : 0 < r / (ea (e_pred (seqE n)) + r)) by (apply Rdiv_lt_0_compat; lra).
    assert (Q1 : r / (ea (e_pred (seqE n)) + r) <= 1) by (replace 1 with (1 / 1) by field; apply div_le; lra).
    rewrite (Rabs_right (r / _)) by lra. pose proof (Rabs_pos (e1 (seqE n) + e2 (seqE n))).
    apply (Rle_trans _ (1 * Rabs (e1 (seqE n) + e2 (seqE n)))); [apply Rmult_le_compat_r; lra|lra]. }
  split; [lra|]. pose proof (H (S n) ltac:(lia)) as B.
  replace (e2 (seqE (S n))) with ((e1 (seqE (S n)) + e2 (seqE (S n))) + - e1 (seqE (S n))) by ring.
  eapply Rle_trans; [apply Rabs_triang|]. rewrite Rabs_Ropp. lra.
Qed.

Theorem position_bounded n : e1 (seqE (S n)) * e1 (seqE (S n)) <= r * V x0.
Proof.
  eapply Rle_trans; [apply e1_bound, seq_pd|]. apply Rmult_le_compat.
  - destruct (seq_pd (S n)) as (A & _). lra.
  - apply V_nonneg, seq_pd.
  - apply ea_bound, seq_pd.
  - apply seq_V0.
Qed.

(** The error of the prediction. *)
Definition dall : R := Rmax dmax (ed x0 + qv).
Lemma ed_all n : ed (seqE (S n)) <= dall.
Proof.
  destruct n as [|n].
  - apply (Rle_trans _ (ed x0 + qv)); [|apply Rmax_r]. cbn [seqE]. unfold e_step, e_corr. cbn [ed]. destruct (V_pred _ P0) as [(A & _) _].
    assert (0 <= eb (e_pred x0) * eb (e_pred x0) / (ea (e_pred x0) + r)).
    { unfold Rdiv. apply Rmult_le_pos; [apply Rle_0_sqr|]. left. apply Rinv_0_lt_compat. lra. }
    cbn [e_pred ed] in *. lra.
  - apply (Rle_trans _ dmax); [|apply Rmax_l]. apply (ed_bound (seqE (S n))); [apply seq_pd|]. apply (ea_bound (seqE n)), seq_pd.
Qed.
Lemma sum_bound x : epd x -> (e1 x + e2 x) * (e1 x + e2 x) <= 2 * (ea x + ed x) * V x.
Proof.
  intros P. pose proof (V_nonneg x P) as Vn. destruct (V_move x P) as [P1 E]. cbv zeta in *. pose proof (e1_bound _ P1) as B.
  cbn [e1 ea] in B. rewrite E in B. eapply Rle_trans; [exact B|]. apply Rmult_le_compat_r; [exact Vn|].
  destruct P as (A & D & C). unfold det in C.
  assert (2 * eb x <= ea x + ed x); [|lra].
  destruct (Rle_lt_dec (2 * eb x) (ea x + ed x)) as [L|L]; auto. exfalso.
  assert ((ea x + ed x) * (ea x + ed x) < (2 * eb x) * (2 * eb x)) by (apply Rmult_le_0_lt_compat; lra).
  pose proof (Rle_0_sqr (ea x - ed x)) as X. unfold Rsqr in X. lra.
Qed.
Theorem prediction_bounded n : (e1 (seqE (S n)) + e2 (seqE (S n))) * (e1 (seqE (S n)) + e2 (seqE (S n))) <= 2 * (r + dall) * V x0.
Proof.
  pose proof (seq_pd (S n)) as P. eapply Rle_trans; [apply (sum_bound _ P)|].
  apply Rmult_le_compat.
  - destruct P as (A & D & _). lra.
  - apply V_nonneg, P.
  - pose proof (ed_all n). assert (ea (seqE (S n)) <= r) by (apply (ea_bound (seqE n)), seq_pd). lra.
  - apply seq_V0.
Qed.

(** One coordinate of a filter, against a position [x] moving by [v]. *)
Definition err_of (x v : R) (c : crd) : err := MkErr (c_pos c - x) (c_vel c - v) (c_pv c) (c_cov c) (c_vv c).
Lemma err_step x v c : epd (err_of x v c) -> err_of (x + v) v (c2_update r (c2_predict qp qv c) (x + v) 1) = e_step (err_of x v c).
Proof.
  intros P. destruct (V_pred _ P) as [(A & _) _]. destruct c as [p w a b d]. unfold err_of, c2_update, c2_predict, e_step, e_corr, e_pred in *. cbn in *.
  f_equal; field; lra.
Qed.
End Steps.

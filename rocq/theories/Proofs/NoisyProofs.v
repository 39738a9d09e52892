(** C91: the error of the Kalman filter for a coordinate with bounded acceleration and bounded measurement errors. *)
From Coq Require Import Reals Lra Lia Psatz Bool List Arith.
From Verif Require Import Model.Num Model.Base Model.Filter Model.KalmanMatrix Spec.KalmanSpec.
From Verif Require Import Proofs.MatrixProofs Proofs.KalmanProofs Proofs.FollowProofs.
Local Open Scope R_scope.

Lemma div_1 u : u / 1 = u.
Proof. field. Qed.

(** [V] as a norm. *)
Definition on (x : err) (u1 u2 : R) : err := MkErr u1 u2 (ea x) (eb x) (ed x).
Definition nrm (x : err) : R := sqrt (V x).
Definition cross (x : err) (f1 f2 : R) : R := ed x * (e1 x * f1) - eb x * (e1 x * f2 + e2 x * f1) + ea x * (e2 x * f2).
Lemma on_epd x u1 u2 : epd x -> epd (on x u1 u2).
Proof. exact (fun H => H). Qed.
Lemma nrm_pos x : 0 <= nrm x.
Proof. apply sqrt_pos. Qed.
Lemma nrm_sq x : epd x -> nrm x * nrm x = V x.
Proof. intros P. apply sqrt_sqrt, V_nonneg, P. Qed.
Lemma le_sq u w : 0 <= w -> u * u <= w * w -> u <= w.
Proof. intros H L. destruct (Rle_lt_dec u w) as [|G]; auto. exfalso. assert (w * w < u * u) by (apply Rmult_le_0_lt_compat; lra). lra. Qed.
Lemma abs_le_sq u w : 0 <= w -> u * u <= w * w -> Rabs u <= w.
Proof. intros H L. apply le_sq; auto. rewrite <- Rabs_mult, Rabs_right; [exact L|]. apply Rle_ge, (Rle_0_sqr u). Qed.
Lemma nrm_triangle x f1 f2 : epd x -> nrm (on x (e1 x + f1) (e2 x + f2)) <= nrm x + nrm (on x f1 f2).
Proof.
  intros P. pose proof (nrm_pos x) as A. pose proof (nrm_pos (on x f1 f2)) as B. apply le_sq; [lra|].
  rewrite nrm_sq by (apply on_epd, P).
  assert (E : V (on x (e1 x + f1) (e2 x + f2)) = V x + V (on x f1 f2) + 2 * (cross x f1 f2 / det x)).
  { destruct P as (_ & _ & D). unfold V, num, cross. change (det (on x _ _)) with (det x). cbn [on e1 e2 ea eb ed]. field. lra. }
  assert (C : cross x f1 f2 / det x <= nrm x * nrm (on x f1 f2)).
  { apply le_sq; [apply Rmult_le_pos; auto|]. replace (nrm x * nrm (on x f1 f2) * (nrm x * nrm (on x f1 f2))) with ((nrm x * nrm x) * (nrm (on x f1 f2) * nrm (on x f1 f2))) by ring.
    rewrite !nrm_sq by (try apply on_epd; exact P). destruct P as (_ & _ & D). unfold V. change (det (on x f1 f2)) with (det x).
    replace (cross x f1 f2 / det x * (cross x f1 f2 / det x)) with ((cross x f1 f2 * cross x f1 f2) / (det x * det x)) by (field; lra).
    replace (num x / det x * (num (on x f1 f2) / det x)) with ((num x * num (on x f1 f2)) / (det x * det x)) by (field; lra).
    assert (D2 : 0 < det x * det x) by (apply Rmult_lt_0_compat; auto). apply div_le; auto. apply Rmult_le_compat_r; [lra|].
    assert (G : num x * num (on x f1 f2) = cross x f1 f2 * cross x f1 f2 + (f2 * e1 x - f1 * e2 x) * (f2 * e1 x - f1 * e2 x) * det x).
    { unfold num, cross, det, on. cbn. ring. }
    rewrite G. pose proof (Rle_0_sqr (f2 * e1 x - f1 * e2 x)) as Q. unfold Rsqr in Q. assert (0 <= (f2 * e1 x - f1 * e2 x) * (f2 * e1 x - f1 * e2 x) * det x) by (apply Rmult_le_pos; lra). lra. }
  rewrite E, <- (nrm_sq x P), <- (nrm_sq (on x f1 f2) (on_epd _ _ _ P)). lra.
Qed.

(** A larger covariance has a smaller [V]. *)
Definition form (x : err) (y1 y2 : R) : R := ea x * (y1 * y1) + 2 * eb x * (y1 * y2) + ed x * (y2 * y2).
Lemma form_pos x y1 y2 : epd x -> 0 <= form x y1 y2.
Proof.
  intros (A & B & C). unfold det in C. unfold form. apply (Rmult_le_reg_l (ea x)); [auto|]. rewrite Rmult_0_r.
  pose proof (Rle_0_sqr (ea x * y1 + eb x * y2)) as X. pose proof (Rle_0_sqr y2) as Y. unfold Rsqr in *.
  assert (0 <= y2 * y2 * (ea x * ed x - eb x * eb x)) by (apply Rmult_le_pos; lra). lra.
Qed.
Lemma cauchy x y1 y2 : epd x -> (y1 * e1 x + y2 * e2 x) * (y1 * e1 x + y2 * e2 x) <= form x y1 y2 * V x.
Proof.
  intros P. destruct P as (A & B & C). unfold V. replace (form x y1 y2 * (num x / det x)) with (form x y1 y2 * num x / det x) by (field; lra).
  rewrite <- (div_1 ((y1 * e1 x + y2 * e2 x) * _)). apply div_le; [lra|auto|].
  assert (G : form x y1 y2 * num x = (y1 * e1 x + y2 * e2 x) * (y1 * e1 x + y2 * e2 x) * det x +
     (ea x * (y1 * e2 x) + eb x * (y2 * e2 x) - eb x * (y1 * e1 x) - ed x * (y2 * e1 x)) * (ea x * (y1 * e2 x) + eb x * (y2 * e2 x) - eb x * (y1 * e1 x) - ed x * (y2 * e1 x))).
  { unfold form, num, det. ring. }
  pose proof (Rle_0_sqr (ea x * (y1 * e2 x) + eb x * (y2 * e2 x) - eb x * (y1 * e1 x) - ed x * (y2 * e1 x))) as Q. unfold Rsqr in Q. lra.
Qed.
Lemma V_mono x x' : epd x -> epd x' -> e1 x' = e1 x -> e2 x' = e2 x -> (forall y1 y2, form x y1 y2 <= form x' y1 y2) -> V x' <= V x.
Proof.
  intros P P' E1 E2 H. pose proof (V_nonneg x P) as N. pose proof (V_nonneg x' P') as N'.
  set (y1 := (ed x' * e1 x' - eb x' * e2 x') / det x'). set (y2 := (ea x' * e2 x' - eb x' * e1 x') / det x').
  assert (D : det x' <> 0) by (destruct P' as (_ & _ & D); lra).
  assert (F1 : y1 * e1 x + y2 * e2 x = V x') by (rewrite <- E1, <- E2; unfold y1, y2, V, num; field; auto).
  assert (F2 : form x' y1 y2 = V x') by (unfold y1, y2, V, num, form; unfold det in *; field; auto).
  pose proof (cauchy x y1 y2 P) as C. rewrite F1 in C. pose proof (H y1 y2) as L. rewrite F2 in L.
  assert (L2 : V x' * V x' <= V x' * V x) by (eapply Rle_trans; [exact C|]; apply Rmult_le_compat_r; auto).
  destruct (Req_dec (V x') 0) as [Z|Z]; [lra|]. apply (Rmult_le_reg_l (V x')); lra.
Qed.

Section Noisy.
Variables qp qv r : R.
Hypothesis Hqp : 0 < qp.
Hypothesis Hqv : 0 < qv.
Hypothesis Hr : 0 < r.
Let Hqp' : 0 <= qp := Rlt_le _ _ Hqp.
Let Hqv' : 0 <= qv := Rlt_le _ _ Hqv.

Variable M : R.
Hypothesis HM : 0 < M.
Definition delta : R := Rmin qp qv / (3 * M).
Lemma delta_pos : 0 < delta.
Proof. apply Rdiv_lt_0_compat; [apply Rmin_glb_lt; auto|lra]. Qed.

(** The prediction shrinks [V]. *)
Lemma form_trace x y1 y2 : epd x -> form x y1 y2 <= (ea x + ed x) * (y1 * y1 + y2 * y2).
Proof.
  (* d y1^2 - 2 b y1 y2 + a y2^2 >= 0 *)
  intros P. pose proof (num_nonneg (on x y1 y2) (on_epd _ _ _ P)) as X. unfold num, form in *. cbn in X. lra.
Qed.
Lemma V_shrinks x : epd x -> ea x + ed x <= M -> (1 + delta) * V (e_pred qp qv x) <= V x.
Proof.
  intros P Hx. pose proof delta_pos as Dp. destruct (V_move x P) as [P1 V1]. cbv zeta in *. destruct (V_pred qp qv Hqp' Hqv' x P) as [P2 _].
  set (y := MkErr (e1 x + e2 x) (e2 x) (ea x + 2 * eb x + ed x) (eb x + ed x) (ed x)) in *.
  set (y' := MkErr (e1 x + e2 x) (e2 x) ((1 + delta) * ea y) ((1 + delta) * eb y) ((1 + delta) * ed y)).
  assert (Dy : det y' = (1 + delta) * (1 + delta) * det y) by (unfold det, y'; cbn [ea eb ed]; ring).
  assert (P3 : epd y').
  { destruct P1 as (A & B & C). split; [|split].
    - unfold y'. cbn [ea]. apply Rmult_lt_0_compat; lra.
    - unfold y'. cbn [ed]. apply Rmult_lt_0_compat; lra.
    - rewrite Dy. apply Rmult_lt_0_compat; [apply Rmult_lt_0_compat; lra|exact C]. }
  assert (E : (1 + delta) * V y' = V y).
  { destruct P1 as (_ & _ & C). unfold V. rewrite Dy. change (e1 y') with (e1 y). unfold num. change (e1 y') with (e1 y). change (e2 y') with (e2 y). unfold y'. cbn [ea eb ed]. field. lra. }
  rewrite <- V1, <- E. apply Rmult_le_compat_l; [lra|]. apply V_mono; auto. intros y1 y2.
  assert (F : form y y1 y2 <= M * (3 * (y1 * y1 + y2 * y2))).
  { replace (form y y1 y2) with (form x y1 (y1 + y2)) by (unfold form, y; cbn [ea eb ed]; ring). eapply Rle_trans; [apply form_trace, P|].
    apply Rmult_le_compat; [destruct P as (A & B & _); lra| |exact Hx|].
    - pose proof (Rle_0_sqr y1). pose proof (Rle_0_sqr (y1 + y2)). unfold Rsqr in *. lra.
    - pose proof (Rle_0_sqr y1) as Q1. pose proof (Rle_0_sqr (y1 - y2)) as Q2. pose proof (Rle_0_sqr y2) as Q3. unfold Rsqr in *. lra. }
  assert (G : delta * form y y1 y2 <= qp * (y1 * y1) + qv * (y2 * y2)).
  { apply (Rle_trans _ (delta * (M * (3 * (y1 * y1 + y2 * y2))))); [apply Rmult_le_compat_l; lra|].
    replace (delta * (M * (3 * (y1 * y1 + y2 * y2)))) with (Rmin qp qv * (y1 * y1) + Rmin qp qv * (y2 * y2)) by (unfold delta; field; lra).
    apply Rplus_le_compat; apply Rmult_le_compat_r; try apply Rle_0_sqr; [apply Rmin_l|apply Rmin_r]. }
  replace (form y' y1 y2) with (form y y1 y2 + delta * form y y1 y2) by (unfold form, y'; cbn [ea eb ed]; ring).
  replace (form (e_pred qp qv x) y1 y2) with (form y y1 y2 + (qp * (y1 * y1) + qv * (y2 * y2))) by (unfold form, y, e_pred; cbn [ea eb ed]; ring). lra.
Qed.
Definition rho : R := sqrt (1 / (1 + delta)).
Lemma rho_sq : rho * rho = 1 / (1 + delta).
Proof. apply sqrt_sqrt. left. apply Rdiv_lt_0_compat; pose proof delta_pos; lra. Qed.
Lemma rho_bounds : 0 <= rho < 1.
Proof.
  split; [apply sqrt_pos|]. pose proof delta_pos. rewrite <- sqrt_1. apply sqrt_lt_1; [left; apply Rdiv_lt_0_compat; lra|lra|].
  apply (Rmult_lt_reg_r (1 + delta)); [lra|]. replace (1 / (1 + delta) * (1 + delta)) with 1 by (field; lra). lra.
Qed.
Lemma nrm_shrinks x : epd x -> ea x + ed x <= M -> nrm (e_pred qp qv x) <= rho * nrm x.
Proof.
  intros P Hx. apply le_sq; [apply Rmult_le_pos; [apply rho_bounds|apply nrm_pos]|]. destruct (V_pred qp qv Hqp' Hqv' x P) as [P2 _].
  replace (rho * nrm x * (rho * nrm x)) with (rho * rho * (nrm x * nrm x)) by ring. rewrite !nrm_sq, rho_sq by auto.
  pose proof (V_shrinks x P Hx) as S. pose proof delta_pos. apply (Rmult_le_reg_l (1 + delta)); [lra|].
  replace ((1 + delta) * (1 / (1 + delta) * V x)) with (V x) by (field; lra). exact S.
Qed.

(** The acceleration and the measurement error. *)
Lemma nrm_push x a : epd x -> nrm (on (e_pred qp qv x) 0 a) <= Rabs a / sqrt qv.
Proof.
  intros P. destruct (V_pred qp qv Hqp' Hqv' x P) as [P2 _]. destruct (V_move x P) as [P1 _]. cbv zeta in *.
  assert (Sq : 0 < sqrt qv) by (apply sqrt_lt_R0; auto). pose proof (Rabs_pos a).
  apply le_sq; [apply Rmult_le_pos; [auto|left; apply Rinv_0_lt_compat; auto]|].
  rewrite nrm_sq by (apply on_epd; auto).
  replace (Rabs a / sqrt qv * (Rabs a / sqrt qv)) with ((a * a) / (sqrt qv * sqrt qv)).
  2:{ replace (a * a) with (Rabs a * Rabs a) by (rewrite <- Rabs_mult; apply Rabs_right, Rle_ge, Rle_0_sqr). field. lra. }
  rewrite sqrt_sqrt by lra. destruct P1 as (A1 & B1 & C1). destruct P2 as (A2 & B2 & C2). unfold V. apply div_le; auto.
  unfold num, on, det, e_pred in *. cbn [e1 e2 ea eb ed] in *.
  assert (0 <= a * a) by apply Rle_0_sqr.
  assert (Q : (ea x + 2 * eb x + ed x + qp) * qv <= (ea x + 2 * eb x + ed x + qp) * (ed x + qv) - (eb x + ed x) * (eb x + ed x)).
  { assert (0 <= qp * ed x) by (apply Rmult_le_pos; lra). lra. }
  apply (Rmult_le_compat_l (a * a)) in Q; auto. lra.
Qed.
Definition gain1 (x : err) : R := ea x / (ea x + r).
Definition gain2 (x : err) : R := eb x / (ea x + r).
Lemma nrm_kick x n : epd x -> nrm (on (e_corr r x) (gain1 x * n) (gain2 x * n)) <= Rabs n / sqrt r.
Proof.
  intros P. destruct (V_corr r Hr x P) as [P2 _]. assert (Sq : 0 < sqrt r) by (apply sqrt_lt_R0; auto). pose proof (Rabs_pos n).
  apply le_sq; [apply Rmult_le_pos; [auto|left; apply Rinv_0_lt_compat; auto]|].
  rewrite nrm_sq by (apply on_epd; auto).
  replace (Rabs n / sqrt r * (Rabs n / sqrt r)) with ((n * n) / (sqrt r * sqrt r)).
  2:{ replace (n * n) with (Rabs n * Rabs n) by (rewrite <- Rabs_mult; apply Rabs_right, Rle_ge, Rle_0_sqr). field. lra. }
  rewrite sqrt_sqrt by lra. destruct P as (A & B & C). assert (S0 : 0 < ea x + r) by lra.
  assert (E : V (on (e_corr r x) (gain1 x * n) (gain2 x * n)) = (n * n) / r * (ea x / (ea x + r))).
  { destruct P2 as (_ & _ & D2). unfold V, num, det, on, e_corr, gain1, gain2 in *. cbn [e1 e2 ea eb ed] in *.
    assert (D : ea x * r / (ea x + r) * (ed x - eb x * eb x / (ea x + r)) - eb x * r / (ea x + r) * (eb x * r / (ea x + r)) = (ea x * ed x - eb x * eb x) * (r / (ea x + r))) by (field; lra).
    rewrite D. field. repeat split; lra. }
  rewrite E. rewrite <- (Rmult_1_r (n * n / r)) at 2. apply Rmult_le_compat_l.
  - apply Rmult_le_pos; [apply Rle_0_sqr|left; apply Rinv_0_lt_compat; auto].
  - rewrite <- (div_1 1). apply div_le; lra.
Qed.

(** One call: the velocity changes by [a], the measurement is off by [n]. *)
Definition n_pred (a : R) (x : err) : err := let y := e_pred qp qv x in on y (e1 y) (e2 y - a).
Definition n_step (a n : R) (x : err) : err :=
  let y := n_pred a x in let z := e_corr r y in on z (e1 z + gain1 y * n) (e2 z + gain2 y * n).
Lemma n_step_cov a n x : ea (n_step a n x) = ea (e_step qp qv r x) /\ eb (n_step a n x) = eb (e_step qp qv r x) /\ ed (n_step a n x) = ed (e_step qp qv r x).
Proof. repeat split. Qed.
Lemma n_step_epd a n x : epd x -> epd (n_step a n x).
Proof. intros P. exact (proj1 (V_step qp qv r Hqp' Hqv' Hr x P)). Qed.
Lemma n_step_nrm a n x : epd x -> ea x + ed x <= M -> nrm (n_step a n x) <= rho * nrm x + (Rabs a / sqrt qv + Rabs n / sqrt r).
Proof.
  intros P Hx. destruct (V_pred qp qv Hqp' Hqv' x P) as [P1 _]. assert (P2 : epd (n_pred a x)) by exact P1. destruct (V_corr r Hr _ P2) as [P3 V3].
  assert (A : nrm (n_pred a x) <= rho * nrm x + Rabs a / sqrt qv).
  { eapply Rle_trans; [|apply Rplus_le_compat; [exact (nrm_shrinks x P Hx)|rewrite <- Rabs_Ropp; exact (nrm_push x (- a) P)]].
    eapply Rle_trans; [|exact (nrm_triangle (e_pred qp qv x) 0 (- a) P1)]. right. unfold n_pred. cbv zeta. f_equal. f_equal; ring. }
  assert (B : nrm (e_corr r (n_pred a x)) <= nrm (n_pred a x)).
  { apply le_sq; [apply nrm_pos|]. rewrite !nrm_sq by auto. rewrite V3. pose proof (Rle_0_sqr (e1 (n_pred a x))) as Q. unfold Rsqr in Q. destruct P2 as (Q1 & _).
    assert (0 <= e1 (n_pred a x) * e1 (n_pred a x) / (ea (n_pred a x) + r)); [|lra]. apply Rmult_le_pos; [exact Q|]. left. apply Rinv_0_lt_compat. lra. }
  pose proof (nrm_triangle (e_corr r (n_pred a x)) (gain1 (n_pred a x) * n) (gain2 (n_pred a x) * n) P3) as C. pose proof (nrm_kick (n_pred a x) n P2) as D.
  unfold n_step. cbv zeta. lra.
Qed.

(** All calls. *)
Variable x0 : err.
Hypothesis P0 : epd x0.
Variables acc eps : R.
Variables (a n : nat -> R).
Hypothesis Ha : forall j, Rabs (a j) <= acc.
Hypothesis Hn : forall j, Rabs (n j) <= eps.
Hypothesis HM0 : ea x0 + ed x0 <= M.
Hypothesis HM1 : r + dall qp qv r x0 <= M.
Fixpoint runE (k : nat) : err := match k with O => x0 | S k => n_step (a k) (n k) (runE k) end.
Lemma run_cov k : ea (runE k) = ea (seqE qp qv r x0 k) /\ eb (runE k) = eb (seqE qp qv r x0 k) /\ ed (runE k) = ed (seqE qp qv r x0 k).
Proof.
  induction k as [|k (A & B & C)]; [auto|]. cbn [runE seqE]. destruct (n_step_cov (a k) (n k) (runE k)) as (-> & -> & ->).
  unfold e_step, e_corr, e_pred. cbn [ea eb ed]. rewrite A, B, C. auto.
Qed.
Lemma run_epd k : epd (runE k).
Proof. induction k; cbn [runE]; [exact P0|apply n_step_epd, IHk]. Qed.
Lemma run_M k : ea (runE k) + ed (runE k) <= M.
Proof.
  destruct (run_cov k) as (-> & _ & ->). destruct k as [|k]; [exact HM0|].
  pose proof (ed_all qp qv r Hqp' Hqv' Hr x0 P0 k). pose proof (ea_bound qp qv r Hqp' Hqv' Hr _ (seq_pd qp qv r Hqp' Hqv' Hr x0 P0 k)). cbn [seqE] in *. lra.
Qed.
Lemma run_nrm k : nrm (runE k) <= rho ^ k * nrm x0 + (acc / sqrt qv + eps / sqrt r) / (1 - rho).
Proof.
  pose proof rho_bounds as [R0 R1].
  assert (Q1 : forall u w, 0 <= u <= w -> 0 <= u / sqrt qv <= w / sqrt qv).
  { intros u w H. assert (0 < / sqrt qv) by (apply Rinv_0_lt_compat, sqrt_lt_R0; auto). split; [apply Rmult_le_pos; lra|apply Rmult_le_compat_r; lra]. }
  assert (Q2 : forall u w, 0 <= u <= w -> 0 <= u / sqrt r <= w / sqrt r).
  { intros u w H. assert (0 < / sqrt r) by (apply Rinv_0_lt_compat, sqrt_lt_R0; auto). split; [apply Rmult_le_pos; lra|apply Rmult_le_compat_r; lra]. }
  set (c := acc / sqrt qv + eps / sqrt r).
  assert (Hc : forall j, Rabs (a j) / sqrt qv + Rabs (n j) / sqrt r <= c).
  { intros j. pose proof (Q1 _ _ (conj (Rabs_pos (a j)) (Ha j))). pose proof (Q2 _ _ (conj (Rabs_pos (n j)) (Hn j))). unfold c. lra. }
  assert (C0 : 0 <= c).
  { pose proof (Q1 _ _ (conj (Rabs_pos (a 0%nat)) (Ha 0%nat))). pose proof (Q2 _ _ (conj (Rabs_pos (n 0%nat)) (Hn 0%nat))). unfold c. lra. }
  induction k as [|k IH].
  - cbn [runE pow]. assert (0 <= c / (1 - rho)); [|lra]. apply Rmult_le_pos; [exact C0|]. left. apply Rinv_0_lt_compat. lra.
  - cbn [runE]. eapply Rle_trans; [apply n_step_nrm; [apply run_epd|apply run_M]|].
    apply (Rle_trans _ (rho * (rho ^ k * nrm x0 + c / (1 - rho)) + c)).
    + apply Rplus_le_compat; [|apply Hc]. apply Rmult_le_compat_l; auto.
    + right. cbn [pow]. field. lra.
Qed.

Lemma nrm_pos_err x : epd x -> ea x + ed x <= M -> Rabs (e1 x) <= sqrt (2 * M) * nrm x /\ Rabs (e2 x) <= sqrt (2 * M) * nrm x /\ Rabs (e1 x + e2 x) <= sqrt (2 * M) * nrm x.
Proof.
  intros P Hx. assert (K : forall u, u * u <= 2 * M * V x -> Rabs u <= sqrt (2 * M) * nrm x).
  { intros u H. apply abs_le_sq; [apply Rmult_le_pos; [apply sqrt_pos|apply nrm_pos]|].
    replace (sqrt (2 * M) * nrm x * (sqrt (2 * M) * nrm x)) with (sqrt (2 * M) * sqrt (2 * M) * (nrm x * nrm x)) by ring. rewrite nrm_sq, sqrt_sqrt by (auto; lra). exact H. }
  pose proof (V_nonneg x P) as N. pose proof P as (A & B & C).
  assert (L : forall y1 y2, y1 * y1 + y2 * y2 <= 2 -> (y1 * e1 x + y2 * e2 x) * (y1 * e1 x + y2 * e2 x) <= 2 * M * V x).
  { intros y1 y2 Hy. eapply Rle_trans; [apply cauchy, P|]. apply Rmult_le_compat_r; [exact N|]. eapply Rle_trans; [apply form_trace, P|].
    rewrite (Rmult_comm 2 M). apply Rmult_le_compat; try lra. pose proof (Rle_0_sqr y1). pose proof (Rle_0_sqr y2). unfold Rsqr in *. lra. }
  split; [|split]; apply K.
  - replace (e1 x) with (1 * e1 x + 0 * e2 x) by ring. apply L. lra.
  - replace (e2 x) with (0 * e1 x + 1 * e2 x) by ring. apply L. lra.
  - replace (e1 x + e2 x) with (1 * e1 x + 1 * e2 x) by ring. apply L. lra.
Qed.
Theorem run_bounded k : let E := sqrt (2 * M) * (rho ^ k * nrm x0 + (acc / sqrt qv + eps / sqrt r) / (1 - rho)) in
  Rabs (e1 (runE k)) <= E /\ Rabs (e2 (runE k)) <= E /\ Rabs (e1 (runE k) + e2 (runE k)) <= E.
Proof.
  intros E. pose proof (run_nrm k) as H. apply (Rmult_le_compat_l (sqrt (2 * M))) in H; [|apply sqrt_pos]. fold E in H.
  destruct (nrm_pos_err _ (run_epd k) (run_M k)) as (A & B & C). repeat split; lra.
Qed.
End Noisy.

(** One coordinate of a filter, against a position [x] that moved by [v] and will move by [v + a]. *)
Lemma noisy_step qp qv r x v a n c : 0 < qp -> 0 < qv -> 0 < r -> epd (err_of x v c) ->
  err_of (x + v) (v + a) (c2_update r (c2_predict qp qv c) (x + v + n) 1) = n_step qp qv r a n (err_of x v c).
Proof.
  intros H1 H2 H3 P. destruct (V_pred qp qv (Rlt_le _ _ H1) (Rlt_le _ _ H2) _ P) as [(A & _) _]. destruct c as [p w ca cb cd].
  unfold n_step, n_pred, on, gain1, gain2, err_of, c2_update, c2_predict, e_corr, e_pred in *. cbn in *.
  f_equal; field; lra.
Qed.
Lemma start_nrm u1 u2 a0 b0 d0 : epd (MkErr u1 u2 a0 b0 d0) ->
  nrm (MkErr u1 u2 a0 b0 d0) <= Rabs u1 * sqrt (d0 / (a0 * d0 - b0 * b0)) + Rabs u2 * sqrt (a0 / (a0 * d0 - b0 * b0)).
Proof.
  intros (A & B & C). assert (P : epd (MkErr u1 0 a0 b0 d0)) by (repeat split; auto).
  pose proof (nrm_triangle _ 0 u2 P) as T. unfold det in C. cbn in A, B, C.
  assert (K : forall u q, 0 < q -> sqrt (q * (u * u)) = Rabs u * sqrt q).
  { intros u q Hq. rewrite sqrt_mult by (try lra; apply Rle_0_sqr). change (u * u) with (Rsqr u). rewrite sqrt_Rsqr_abs. ring. }
  assert (E1 : nrm (MkErr u1 0 a0 b0 d0) = Rabs u1 * sqrt (d0 / (a0 * d0 - b0 * b0))).
  { rewrite <- K by (apply Rdiv_lt_0_compat; lra). unfold nrm, V, num, det. cbn. f_equal. field. lra. }
  assert (E2 : nrm (on (MkErr u1 0 a0 b0 d0) 0 u2) = Rabs u2 * sqrt (a0 / (a0 * d0 - b0 * b0))).
  { rewrite <- K by (apply Rdiv_lt_0_compat; lra). unfold nrm, V, num, det. cbn. f_equal. field. lra. }
  rewrite E1, E2 in T. unfold on in T. cbn [e1 e2 ea eb ed] in T. rewrite Rplus_0_r, Rplus_0_l in T. exact T.
Qed.

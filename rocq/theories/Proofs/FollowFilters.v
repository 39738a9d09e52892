(** C85 for the filters. *)
From Coq Require Import Reals Lra Lia Psatz Bool List Arith.
From Verif Require Import Model.Num Model.Base Model.Filter Model.KalmanMatrix Spec.KalmanSpec Spec.PointSpec Spec.FollowSpec.
From Verif Require Import Proofs.MatrixProofs Proofs.PointProofs Proofs.FilterTracker Proofs.KalmanProofs Proofs.KalmanTheorems Proofs.FollowProofs.
Import ListNotations.
Local Open Scope R_scope.

Lemma seqE_shift qp qv r x n : seqE qp qv r (e_step qp qv r x) n = seqE qp qv r x (S n).
Proof. induction n; cbn; auto. rewrite IHn. reflexivity. Qed.

Section Generic.
Variable FO : filter_ops RNum.
Variables qp qv r a0 b0 d0 : R.
Hypothesis Hqp : 0 <= qp.
Hypothesis Hqv : 0 <= qv.
Hypothesis Hr : 0 < r.
Hypothesis Ha0 : 0 < a0.
Hypothesis Hd0 : 0 < d0.
Hypothesis Hdet : b0 * b0 < a0 * d0.
Variable Rel : nat -> nat -> fstate FO -> crd -> Prop.
Hypothesis Hstart : forall z0 k x, nth_error (flatten z0) k = Some x -> Rel (length (flatten z0)) k (f_create FO z0) (MkCoord (N := RNum) x 0 a0 b0 d0).
Hypothesis Hstep : forall d k f c m z, Rel d k f c -> pd c -> fits_dim d m -> nth_error (me_mask m) k = Some true -> nth_error (me_z m) k = Some z ->
  Rel d k (f_update FO (f_predict FO f) (me_z m) (map bit (me_mask m))) (c2_update r (c2_predict qp qv c) z 1).
Hypothesis Hout : forall d k f c, Rel d k f c -> nth_error (f_x FO f) k = Some (c_pos c) /\ nth_error (f_x FO f) (k + d) = Some (c_vel c).
Hypothesis Hpred : forall d k f c, Rel d k f c -> nth_error (f_x FO (f_predict FO f)) k = Some (c_pos c + c_vel c).

Lemma pd_epd x v c : epd (err_of x v c) <-> pd c.
Proof. unfold epd, det, pd, err_of. cbn. lra. Qed.

Lemma run_errors d k v ms : forall f c x, Rel d k f c -> pd c -> Forall (fits_dim d) ms ->
  (forall j m, nth_error ms j = Some m -> nth_error (me_mask m) k = Some true /\ nth_error (me_z m) k = Some (x + INR (S j) * v)) ->
  exists c', Rel d k (fold_left (fun s m => f_update FO (f_predict FO s) (me_z m) (map bit (me_mask m))) ms f) c' /\
    err_of (x + INR (length ms) * v) v c' = seqE qp qv r (err_of x v c) (length ms).
Proof.
  induction ms as [|m ms IH]; intros f c x HR HP F Hm.
  - exists c. split; [exact HR|]. cbn [length INR]. cbn [seqE]. f_equal. ring.
  - inversion F as [|? ? F1 F2]; subst. destruct (Hm 0%nat m eq_refl) as [M1 M2]. cbn [INR] in M2.
    replace (x + 1 * v) with (x + v) in M2 by ring.
    pose proof (Hstep d k f c m _ HR HP F1 M1 M2) as HR'.
    assert (E : epd (err_of x v c)) by (apply pd_epd; auto).
    pose proof (err_step qp qv r Hqp Hqv Hr x v c E) as Ee.
    assert (P' : pd (c2_update r (c2_predict qp qv c) (x + v) 1)).
    { apply (pd_epd (x + v) v). rewrite Ee. apply V_step; auto. }
    destruct (IH _ _ (x + v) HR' P' F2) as (c' & A & B).
    { intros j m' Hj. destruct (Hm (S j) m' Hj) as [N1 N2]. split; [exact N1|]. rewrite N2. f_equal. rewrite (S_INR (S j)). ring. }
    exists c'. cbn [fold_left]. split; [exact A|]. cbn [length]. rewrite S_INR.
    replace (x + (INR (length ms) + 1) * v) with (x + v + INR (length ms) * v) by ring.
    rewrite B, Ee. apply seqE_shift.
Qed.

Definition c00 (x : R) : crd := MkCoord (N := RNum) x 0 a0 b0 d0.
Lemma start_err x v : err_of x v (c00 x) = MkErr 0 (- v) a0 b0 d0.
Proof. unfold err_of. cbn. f_equal; ring. Qed.
Lemma start_pd' x : pd (c00 x).
Proof. unfold pd. cbn. auto. Qed.
Lemma start_epd v : epd (MkErr 0 (- v) a0 b0 d0).
Proof. rewrite <- (start_err 0). apply pd_epd, start_pd'. Qed.

Lemma moves_errors v x k z0 ms : moves_at v x k z0 ms ->
  exists y w, filter_at FO z0 (filter_run FO z0 ms) k y w /\
    y - (x + INR (length ms) * v) = e1 (seqE qp qv r (MkErr 0 (- v) a0 b0 d0) (length ms)) /\
    w - v = e2 (seqE qp qv r (MkErr 0 (- v) a0 b0 d0) (length ms)) /\
    nth_error (f_x FO (f_predict FO (filter_run FO z0 ms))) k = Some (y + w).
Proof.
  intros (F & Hx & Hm). destruct (run_errors _ k v ms _ _ x (Hstart z0 k x Hx) (start_pd' x) F Hm) as (c' & A & B).
  fold (c00 x) in B. rewrite start_err in B. destruct (Hout _ _ _ _ A) as [O1 O2].
  exists (c_pos c'), (c_vel c'). split; [split; assumption|]. rewrite <- B. split; [reflexivity|]. split; [reflexivity|]. apply (Hpred _ _ _ _ A).
Qed.

Theorem generic_follows : follows FO.
Proof.
  intros v eps He. destruct (errors_vanish qp qv r Hqp Hqv Hr _ (start_epd v) eps He) as [n0 H]. exists n0.
  intros z0 ms k x M L. destruct (moves_errors v x k z0 ms M) as (y & w & A & B & C & _). exists y, w. split; [exact A|]. rewrite B, C. apply H, L.
Qed.
Theorem generic_within : stays_within FO (r * a0 / (a0 * d0 - b0 * b0)).
Proof.
  intros v z0 ms k x M. destruct (moves_errors v x k z0 ms M) as (y & w & A & B & C & _). exists y, w. split; [exact A|]. rewrite B.
  assert (P : 0 < a0 * d0 - b0 * b0) by lra.
  destruct (length ms) as [|n].
  - cbn [seqE e1]. rewrite Rmult_0_l. pose proof (Rle_0_sqr v) as X. unfold Rsqr in X. apply Rmult_le_pos; auto.
    left. apply Rdiv_lt_0_compat; auto. apply Rmult_lt_0_compat; auto.
  - eapply Rle_trans; [apply position_bounded; auto; apply start_epd|]. right. unfold V, num, det. cbn. field. lra.
Qed.
Notation pred_const := (prediction_constant qp qv r a0 b0 d0).
Theorem generic_predicts : predicts_within FO pred_const.
Proof.
  intros v z0 ms k x M. destruct (moves_errors v x k z0 ms M) as (y & w & A & B & C & D). exists (y + w). split; [exact D|].
  replace (y + w - (x + INR (S (length ms)) * v)) with ((y - (x + INR (length ms) * v)) + (w - v)) by (rewrite S_INR; ring).
  rewrite B, C. assert (P : 0 < a0 * d0 - b0 * b0) by lra. pose proof (Rle_0_sqr v) as X. unfold Rsqr in X.
  destruct (length ms) as [|n].
  - cbn [seqE e1 e2]. apply (Rle_trans _ (1 * (v * v))); [right; ring|]. apply Rmult_le_compat_r; auto. apply Rmax_l.
  - eapply Rle_trans; [apply prediction_bounded; auto; apply start_epd|].
    eapply Rle_trans; [|apply Rmult_le_compat_r; [exact X|apply Rmax_r]]. right. unfold V, num, det, dall, dmax. cbn [e1 e2 ea eb ed]. field. lra.
Qed.
End Generic.

(* ---- the optimized filter ---- *)
Section Optimized.
Variable p : okf_params RNum.
Hypothesis HR : 0 < kp_R p.
Hypothesis HQ : 0 <= kp_Q p.
Hypothesis HP : start_pd p.
Definition okf_rel (d k : nat) (f : okf RNum) (c : crd) : Prop := okf_inv p d f /\ nth_error (okf_coords f) k = Some c.
Lemma okf_rel_start z0 k x : nth_error (flatten z0) k = Some x ->
  okf_rel (length (flatten z0)) k (okf_create p z0) (MkCoord (N := RNum) x 0 (kp_pos_variance p) (kp_pos_vel_covariance p) (kp_vel_variance p)).
Proof.
  intros H. split; [apply okf_start_inv|]. rewrite (okf_start_coord p z0 k x H). unfold coord_start. rewrite !Rplus_0_l. reflexivity.
Qed.
Lemma okf_rel_step d k f c m z : okf_rel d k f c -> pd c -> fits_dim d m -> nth_error (me_mask m) k = Some true -> nth_error (me_z m) k = Some z ->
  okf_rel d k (okf_update (okf_predict f) (me_z m) (map bit (me_mask m))) (c2_update (kp_R p) (c2_predict (kp_Q p) (kp_Q p) c) z 1).
Proof.
  intros [I C] P F M Z. pose proof (okf_do_inv p d f Predict I Logic.I) as I1. pose proof (okf_do_coord p d f Predict k c I Logic.I C) as C1.
  split; [exact (okf_do_inv p d _ (Correct m) I1 F)|].
  pose proof (okf_do_coord p d _ (Correct m) k _ I1 F C1) as C2. cbn [okf_do] in C2. rewrite C2. cbn [proj coord_do].
  rewrite (nth_error_nth _ _ _ M), (nth_error_nth _ _ _ Z). f_equal. rewrite Rmult_1_r.
  pose proof (pd_S (kp_Q p) (kp_R p) c HQ HR P) as HS.
  rewrite coord_is_kalman; [reflexivity|lra|lra].
Qed.
Lemma okf_rel_out d k f c : okf_rel d k f c -> nth_error (k_x f) k = Some (c_pos c) /\ nth_error (k_x f) (k + d) = Some (c_vel c).
Proof.
  intros [I C]. destruct (okf_arrays _ _ (oi_wf _ _ _ I)) as (A1 & _ & _ & _ & L). rewrite A1.
  assert (Hk : (k < d)%nat) by (rewrite <- L; apply nth_error_Some; congruence).
  rewrite nth_error_app1 by (rewrite map_length; lia). rewrite nth_error_app2 by (rewrite map_length; lia).
  rewrite map_length, L. replace (k + d - d)%nat with k by lia. rewrite !nth_error_map, C. split; reflexivity.
Qed.
Lemma okf_rel_pred d k f c : okf_rel d k f c -> nth_error (k_x (okf_predict f)) k = Some (c_pos c + c_vel c).
Proof.
  intros [I C]. pose proof (okf_do_inv p d f Predict I Logic.I) as I1. pose proof (okf_do_coord p d f Predict k c I Logic.I C) as C1.
  apply (okf_rel_out d k (okf_predict f) _ (conj I1 C1)).
Qed.
Theorem okf_follows : follows (okf_ops p).
Proof.
  destruct HP as (A & B & C). eapply (generic_follows (okf_ops p) (kp_Q p) (kp_Q p) (kp_R p) _ _ _ HQ HQ HR A B C okf_rel).
  - exact okf_rel_start.
  - exact okf_rel_step.
  - exact okf_rel_out.
  - exact okf_rel_pred.
Qed.
Theorem okf_within : stays_within (okf_ops p)
  (kp_R p * kp_pos_variance p / (kp_pos_variance p * kp_vel_variance p - kp_pos_vel_covariance p * kp_pos_vel_covariance p)).
Proof.
  destruct HP as (A & B & C). eapply (generic_within (okf_ops p) (kp_Q p) (kp_Q p) (kp_R p) _ _ _ HQ HQ HR A B C okf_rel).
  - exact okf_rel_start.
  - exact okf_rel_step.
  - exact okf_rel_out.
  - exact okf_rel_pred.
Qed.
Theorem okf_predicts : predicts_within (okf_ops p)
  (prediction_constant (kp_Q p) (kp_Q p) (kp_R p) (kp_pos_variance p) (kp_pos_vel_covariance p) (kp_vel_variance p)).
Proof.
  destruct HP as (A & B & C). eapply (generic_predicts (okf_ops p) (kp_Q p) (kp_Q p) (kp_R p) _ _ _ HQ HQ HR A B C okf_rel).
  - exact okf_rel_start.
  - exact okf_rel_step.
  - exact okf_rel_out.
  - exact okf_rel_pred.
Qed.
End Optimized.

(* ---- filterpy ---- *)
Section FilterPy.
Variable inv : nat -> mat -> mat.
Variable p : fp_params.
Hypothesis Hinv : inverts_diagonal inv.
Hypothesis HR : 0 < fp_R p.
Hypothesis HQ : 0 <= fp_Q p.
Hypothesis HP : 0 < fp_P p.
Definition fp_rel (d k : nat) (f : fp_filter) (c : crd) : Prop :=
  (k < d)%nat /\ fpf_dim_z f = d /\ fpf_params f = p /\ exists cf, like d cf (fpf_state f) /\ (forall k, (k < d)%nat -> qpsd (cf k)) /\ cf k = c.
Lemma fp_rel_start z0 k x : nth_error (flatten z0) k = Some x ->
  fp_rel (length (flatten z0)) k (fp_create p z0) (MkCoord (N := RNum) x 0 1 0 (fp_P p)).
Proof.
  intros H. assert (Hk : (k < length (flatten z0))%nat) by (apply nth_error_Some; congruence).
  split; [exact Hk|]. split; [reflexivity|]. split; [reflexivity|].
  exists (fun k => MkCoord (N := RNum) (nth k (flatten (N := RNum) z0) 0) 0 1 0 (fp_P p)). split; [split|split].
  - intros j Hj. apply Nat.ltb_lt in Hj. exact (f_equal (fun b : bool => if b then nth j (flatten z0) 0 else 0) Hj).
  - intros j Hj. assert (X : Nat.ltb (j + length (flatten z0)) (length (flatten z0)) = false) by (apply Nat.ltb_ge; lia).
    exact (f_equal (fun b : bool => if b then nth (j + length (flatten z0)) (flatten z0) 0 else 0) X).
  - cbn. intros i j Hi Hj. rewrite Q_blk by auto. reflexivity.
  - intros j Hj u w. cbn. pose proof (Rle_0_sqr u) as U. pose proof (Rle_0_sqr w) as W. unfold Rsqr in *.
    assert (0 <= fp_P p * (w * w)) by (apply Rmult_le_pos; lra). lra.
  - f_equal. apply nth_error_nth. exact H.
Qed.
Lemma fp_rel_step d k f c m z : fp_rel d k f c -> pd c -> fits_dim d m -> nth_error (me_mask m) k = Some true -> nth_error (me_z m) k = Some z ->
  fp_rel d k (fp_update inv (fp_predict f) (me_z m) (map bit (me_mask m))) (c2_update (fp_R p) (c2_predict 1 (fp_Q p) c) z 1).
Proof.
  intros (Hk & <- & E & cf & L & Q & Ec) P [F1 F2] M Z.
  assert (L1 : like (fpf_dim_z f) (fun k => c2_predict 1 (fp_Q p) (cf k)) (fpf_state (fp_predict f))).
  { cbn. apply kf_predict_like; auto. rewrite E. intros i j _ _. reflexivity. }
  assert (Q1 : forall k, (k < fpf_dim_z f)%nat -> qpsd (c2_predict 1 (fp_Q p) (cf k))) by (intros j Hj; apply c2_predict_qpsd; auto; lra).
  split; [exact Hk|]. split; [reflexivity|]. split; [exact E|].
  exists (fun k => c2_update (fp_R p) (c2_predict 1 (fp_Q p) (cf k)) (nth k (me_z m) 0) (nth k (map bit (me_mask m)) 0)). split; [|split].
  - cbn [fp_update fpf_state fpf_params fpf_dim_z]. change (fpf_params (fp_predict f)) with (fpf_params f). change (fpf_dim_z (fp_predict f)) with (fpf_dim_z f). rewrite E.
    apply kf_update_like; auto; [rewrite map_length; auto|]. intros j Hj. apply c2_S; auto.
  - intros j Hj. apply c2_update_qpsd; auto.
  - rewrite Ec, (nth_error_nth _ _ _ Z). f_equal. apply nth_error_nth. rewrite nth_error_map, M. reflexivity.
Qed.
Lemma fp_rel_out d k f c : fp_rel d k f c -> nth_error (fp_x f) k = Some (c_pos c) /\ nth_error (fp_x f) (k + d) = Some (c_vel c).
Proof.
  intros (Hk & <- & E & cf & L & Q & Ec). unfold fp_x. rewrite !nth_error_map.
  rewrite !(nth_error_nth' (seq 0 (2 * fpf_dim_z f)) 0%nat) by (rewrite seq_length; lia). rewrite !seq_nth by lia. cbn [option_map Nat.add].
  rewrite (lk_pos _ _ _ L), (lk_vel _ _ _ L), Ec by auto. split; reflexivity.
Qed.
Lemma fp_rel_pred d k f c : fp_rel d k f c -> nth_error (fp_x (fp_predict f)) k = Some (c_pos c + c_vel c).
Proof.
  intros (Hk & <- & E & cf & L & Q & Ec).
  assert (L1 : like (fpf_dim_z f) (fun k => c2_predict 1 (fp_Q p) (cf k)) (fpf_state (fp_predict f))).
  { cbn. apply kf_predict_like; auto. rewrite E. intros i j _ _. reflexivity. }
  unfold fp_x. change (fpf_dim_z (fp_predict f)) with (fpf_dim_z f). rewrite nth_error_map.
  rewrite (nth_error_nth' (seq 0 (2 * fpf_dim_z f)) 0%nat) by (rewrite seq_length; lia). rewrite seq_nth by lia. cbn [option_map Nat.add].
  rewrite (lk_pos _ _ _ L1), Ec by auto. reflexivity.
Qed.
Theorem fp_follows : follows (fp_ops inv p).
Proof.
  eapply (generic_follows (fp_ops inv p) 1 (fp_Q p) (fp_R p) 1 0 (fp_P p)) with (Rel := fp_rel); auto; try lra.
  - exact fp_rel_start.
  - exact fp_rel_step.
  - exact fp_rel_out.
  - exact fp_rel_pred.
Qed.
Theorem fp_within : stays_within (fp_ops inv p) (fp_R p / fp_P p).
Proof.
  replace (fp_R p / fp_P p) with (fp_R p * 1 / (1 * fp_P p - 0 * 0)) by (field; lra).
  eapply (generic_within (fp_ops inv p) 1 (fp_Q p) (fp_R p) 1 0 (fp_P p)) with (Rel := fp_rel); auto; try lra.
  - exact fp_rel_start.
  - exact fp_rel_step.
  - exact fp_rel_out.
  - exact fp_rel_pred.
Qed.
Theorem fp_predicts : predicts_within (fp_ops inv p) (prediction_constant 1 (fp_Q p) (fp_R p) 1 0 (fp_P p)).
Proof.
  eapply (generic_predicts (fp_ops inv p) 1 (fp_Q p) (fp_R p) 1 0 (fp_P p)) with (Rel := fp_rel); auto; try lra.
  - exact fp_rel_start.
  - exact fp_rel_step.
  - exact fp_rel_out.
  - exact fp_rel_pred.
Qed.
End FilterPy.

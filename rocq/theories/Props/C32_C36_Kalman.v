(** C32, C33, C34, C36: the optimized Kalman filter, over the real numbers. *)
From Coq Require Import Reals Lra Lia Bool List Arith.
From Verif Require Import Model.Num Model.Base Model.Filter Model.KalmanMatrix Spec.KalmanSpec Spec.KalmanUseSpec Proofs.KalmanTheorems Proofs.KalmanMore.
Import ListNotations.
Local Open Scope R_scope.

(** C32 when predict() and update() alternate (the tracker calls predict once per frame and update at most once):
    state vector and variances are those of the matrix filter.  For frames without a match see the refutation. *)
Theorem C32_optimized_is_kalman_partial inv (p : okf_params RNum) (z0 : points RNum) ms : inverts_diagonal inv ->
  0 < kp_R p -> 0 <= kp_Q p -> start_psd p -> Forall (fits_dim (length (flatten z0))) ms ->
  let d := length (flatten z0) in
  let f := okf_run p z0 ms in
  let s := textbook_run inv p (flatten z0) ms in
  k_x f = map (kx s) (seq 0 (2 * d)) /\
  k_pos_variance f = map (fun k => kP s k k) (seq 0 d) /\
  k_pos_vel_covariance f = map (fun k => kP s k (k + d)%nat) (seq 0 d) /\
  k_vel_variance f = map (fun k => kP s (k + d)%nat (k + d)%nat) (seq 0 d).
Proof. exact (optimized_is_kalman inv p z0 ms). Qed.
Print Assumptions C32_optimized_is_kalman_partial.

(** C32 is false for a missed frame: predict() does not change the variances, they are advanced by one step in
    update() only.  Default parameters, one coordinate, predict twice, then measure 1. *)
Theorem C32_optimized_is_kalman_refuted :
  let p := okf_default_params (N := RNum) in
  let l := [Predict; Predict; Correct (MkMeas [1] [true])] in
  exists inv, inverts_diagonal inv /\
  nth 0 (k_x (okf_acts p [[0]] l)) 0 = 111 / 151 /\
  kx (textbook_acts inv p [0] l) 0%nat = 143 / 183.
Proof. exact missed_frame. Qed.
Print Assumptions C32_optimized_is_kalman_refuted.

(** What it does for predictions and corrections in any order: the matrix filter of [lagging_do]. *)
Theorem C32_optimized_is_lagging inv (p : okf_params RNum) (z0 : points RNum) l : inverts_diagonal inv ->
  0 < kp_R p -> 0 <= kp_Q p -> start_psd p -> Forall (action_fits (length (flatten z0))) l ->
  let d := length (flatten z0) in
  let f := okf_acts p z0 l in
  let s := lagging_acts inv p (flatten z0) l in
  k_x f = map (kx s) (seq 0 (2 * d)) /\
  k_pos_variance f = map (fun k => kP s k k) (seq 0 d) /\
  k_pos_vel_covariance f = map (fun k => kP s k (k + d)%nat) (seq 0 d) /\
  k_vel_variance f = map (fun k => kP s (k + d)%nat (k + d)%nat) (seq 0 d).
Proof. exact (optimized_is_lagging inv p z0 l). Qed.
Print Assumptions C32_optimized_is_lagging.

(** C33 for a positive definite start: in every reachable state the covariance of every coordinate is positive
    definite, the number that is divided by is positive and the gain is strictly between 0 and 1. *)
Theorem C33_variances_positive_partial (p : okf_params RNum) (z0 : points RNum) l k : 0 < kp_R p -> 0 <= kp_Q p -> start_pd p ->
  Forall (action_fits (length (flatten z0))) l -> (k < length (flatten z0))%nat ->
  let f := okf_acts p z0 l in
  exists pv cov vv, nth_error (k_pos_variance f) k = Some pv /\ nth_error (k_pos_vel_covariance f) k = Some cov /\
    nth_error (k_vel_variance f) k = Some vv /\ 0 < pv /\ 0 < vv /\ cov * cov < pv * vv /\
    let S := pv + 2 * cov + vv + kp_Q p + kp_R p in 0 < S /\ 0 < 1 - kp_R p / S < 1.
Proof. exact (variances_positive p z0 l k). Qed.
Print Assumptions C33_variances_positive_partial.

(** The same for a positive semidefinite start, with weak inequalities. *)
Theorem C33_variances_nonnegative (p : okf_params RNum) (z0 : points RNum) l k : 0 < kp_R p -> 0 <= kp_Q p -> start_psd p ->
  Forall (action_fits (length (flatten z0))) l -> (k < length (flatten z0))%nat ->
  let f := okf_acts p z0 l in
  exists pv cov vv, nth_error (k_pos_variance f) k = Some pv /\ nth_error (k_pos_vel_covariance f) k = Some cov /\
    nth_error (k_vel_variance f) k = Some vv /\ 0 <= pv /\ 0 <= vv /\ cov * cov <= pv * vv /\
    let S := pv + 2 * cov + vv + kp_Q p + kp_R p in 0 < S /\ 0 <= 1 - kp_R p / S < 1.
Proof. exact (variances_nonnegative p z0 l k). Qed.
Print Assumptions C33_variances_nonnegative.

(** With a singular start the position variance can become 0 although all parameters are positive. *)
Theorem C33_variances_positive_refuted :
  let p : okf_params RNum := MkOkfParams (N := RNum) 1 0 1 (-1) 1 in
  start_psd p /\ 0 < kp_R p /\ 0 < kp_pos_variance p /\ 0 < kp_vel_variance p /\ 0 <= kp_Q p /\
  k_pos_variance (okf_acts p [[0]] [Predict; Correct (MkMeas [1] [true])]) = [0].
Proof. exact singular_start. Qed.
Print Assumptions C33_variances_positive_refuted.

(** C33 for the filter of [FilterPyKalmanFilterFactory], for any order of predictions and corrections: each
    coordinate has a positive definite covariance, different coordinates are uncorrelated. *)
Theorem C33_filterpy inv (p : fp_params) (z0 : points RNum) l : inverts_diagonal inv -> 0 < fp_R p -> 0 <= fp_Q p -> 0 < fp_P p ->
  let d := length (flatten z0) in Forall (action_fits d) l ->
  let P := kP (fpf_state (fp_acts inv p z0 l)) in
  (forall k, (k < d)%nat -> 0 < P k k /\ 0 < P (k + d)%nat (k + d)%nat /\ P k (k + d)%nat = P (k + d)%nat k /\
    P k (k + d)%nat * P k (k + d)%nat < P k k * P (k + d)%nat (k + d)%nat /\ 0 < P k k / (P k k + fp_R p) < 1) /\
  (forall i j, (i < 2 * d)%nat -> (j < 2 * d)%nat -> i <> j -> i <> (j + d)%nat -> j <> (i + d)%nat -> P i j = 0).
Proof. exact (fun Hi HR HQ HP => fp_variances inv p Hi HR HQ (Rlt_le _ _ HP) HP z0 l). Qed.
Print Assumptions C33_filterpy.

(** C34: [x], [v] before and [x'], [v'] after a correction. *)
Theorem C34_between (p : okf_params RNum) (z0 : points RNum) l m k : 0 < kp_R p -> 0 <= kp_Q p -> start_pd p ->
  let d := length (flatten z0) in
  Forall (action_fits d) l -> fits_dim d m -> (k < d)%nat ->
  exists x v x' v' z b, nth_error (k_x (okf_acts p z0 l)) k = Some x /\ nth_error (k_x (okf_acts p z0 l)) (k + d) = Some v /\
    nth_error (k_x (okf_acts p z0 (l ++ [Correct m]))) k = Some x' /\ nth_error (k_x (okf_acts p z0 (l ++ [Correct m]))) (k + d) = Some v' /\
    nth_error (me_z m) k = Some z /\ nth_error (me_mask m) k = Some b /\
    if b then (x < z -> x < x' < z) /\ (z < x -> z < x' < x) /\ (x = z -> x' = x /\ v' = v) else x' = x /\ v' = v.
Proof. exact (between p z0 l m k). Qed.
Print Assumptions C34_between.

Theorem C34_filterpy inv (p : fp_params) (z0 : points RNum) l m k : inverts_diagonal inv -> 0 < fp_R p -> 0 <= fp_Q p -> 0 < fp_P p ->
  let d := length (flatten z0) in
  Forall (action_fits d) l -> fits_dim d m -> (k < d)%nat ->
  exists x v x' v' z b, nth_error (fp_x (fp_acts inv p z0 l)) k = Some x /\ nth_error (fp_x (fp_acts inv p z0 l)) (k + d) = Some v /\
    nth_error (fp_x (fp_acts inv p z0 (l ++ [Correct m]))) k = Some x' /\ nth_error (fp_x (fp_acts inv p z0 (l ++ [Correct m]))) (k + d) = Some v' /\
    nth_error (me_z m) k = Some z /\ nth_error (me_mask m) k = Some b /\
    if b then (x < z -> x < x' < z) /\ (z < x -> z < x' < x) /\ (x = z -> x' = x /\ v' = v) else x' = x /\ v' = v.
Proof. exact (fun Hi HR HQ HP => fp_between inv p Hi HR HQ (Rlt_le _ _ HP) HP z0 l m k). Qed.
Print Assumptions C34_filterpy.

(** C36: two runs whose measurements of coordinate [k] differ by [t] (and that may differ arbitrarily elsewhere). *)
Theorem C36_translation_and_independence (p : okf_params RNum) (z0 z0' : points RNum) l l' k t x :
  let d := length (flatten z0) in
  let d' := length (flatten z0') in
  Forall (action_fits d) l -> Forall (action_fits d') l' ->
  nth_error (flatten z0) k = Some x -> nth_error (flatten z0') k = Some (x + t) -> Forall2 (shifted k t) l l' ->
  exists y v, nth_error (k_x (okf_acts p z0 l)) k = Some y /\ nth_error (k_x (okf_acts p z0 l)) (k + d) = Some v /\
    nth_error (k_x (okf_acts p z0' l')) k = Some (y + t) /\ nth_error (k_x (okf_acts p z0' l')) (k + d') = Some v.
Proof. exact (translation_equivariant p z0 z0' l l' k t x). Qed.
Print Assumptions C36_translation_and_independence.

Theorem C36_filterpy inv (p : fp_params) (z0 z0' : points RNum) l l' k t x : inverts_diagonal inv -> 0 < fp_R p -> 0 <= fp_Q p -> 0 <= fp_P p ->
  let d := length (flatten z0) in
  let d' := length (flatten z0') in
  Forall (action_fits d) l -> Forall (action_fits d') l' ->
  nth_error (flatten z0) k = Some x -> nth_error (flatten z0') k = Some (x + t) -> Forall2 (shifted k t) l l' ->
  exists y v, nth_error (fp_x (fp_acts inv p z0 l)) k = Some y /\ nth_error (fp_x (fp_acts inv p z0 l)) (k + d) = Some v /\
    nth_error (fp_x (fp_acts inv p z0' l')) k = Some (y + t) /\ nth_error (fp_x (fp_acts inv p z0' l')) (k + d') = Some v.
Proof. exact (fun Hi HR HQ HP => fp_translation inv p Hi HR HQ HP z0 z0' l l' k t x). Qed.
Print Assumptions C36_filterpy.

(* ---- concrete cases ---- *)
Example ex32_inv : inverts_diagonal diag_inv.
Proof. exact diag_inv_ok. Qed.
Example ex33_defaults : let p := okf_default_params (N := RNum) in 0 < kp_R p /\ 0 <= kp_Q p /\ start_pd p /\ start_psd p.
Proof. exact defaults_ok. Qed.
Example ex33_filterpy : let p := fp_default_params in 0 < fp_R p /\ 0 <= fp_Q p /\ 0 < fp_P p.
Proof. cbn. lra. Qed.
Definition ex34_l : list action := [Predict; Correct (MkMeas [1; 2] [true; false]); Predict; Predict].
Example ex34_fits : Forall (action_fits 2) ex34_l /\ fits_dim 2 (MkMeas [3; 4] [false; true]).
Proof. split; [repeat constructor|split; reflexivity]. Qed.
Definition ex36_l : list action := [Predict; Correct (MkMeas [6; 9; 9] [true; false; true]); Predict; Predict].
Example ex36_shifted : Forall (action_fits 3) ex36_l /\ Forall2 (shifted 0 5) ex34_l ex36_l.
Proof.
  split; [repeat constructor|]. repeat constructor. eapply shifted_correct; try reflexivity.
  intros _. exists 1. split; [reflexivity|]. cbn. f_equal. lra.
Qed.

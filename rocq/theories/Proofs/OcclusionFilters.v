(** C97 for the filters of the library. *)
From Coq Require Import ZArith QArith Reals Lra Lia Psatz List Arith Permutation.
From Verif Require Import Model.Num Model.Base Model.Filter Model.KalmanMatrix Model.Distances Model.Tracker Spec.KalmanSpec Spec.PointSpec Spec.FollowSpec Spec.GapSpec Spec.ExampleVideo Spec.SceneSpec Spec.OcclusionSpec.
From Verif Require Import Proofs.PointProofs Proofs.FilterTracker Proofs.KalmanTheorems Proofs.ReplayProofs Proofs.GapFilters Proofs.OcclusionProofs.
Import ListNotations.
Local Open Scope R_scope.

Theorem nofilter_gaps G cap (K : R) : INR (S (Z.to_nat cap)) <= K -> follows_gaps (nofilter_ops RNum) G cap K.
Proof.
  intros HK. pose proof (pos_INR (S (Z.to_nat cap))) as X.
  apply (gaps_followed nf_wf eq nf_regular (nf_rewritable nf_wf) G cap _ K (nf_coasts G _)); [lra|]. apply Rmult_le_compat; lra.
Qed.
Theorem optimized_gaps (p : okf_params RNum) cap D (K : R) : 0 < kp_R p -> 0 <= kp_Q p -> start_pd p ->
  velocity_bound (kp_Q p) (kp_Q p) (kp_R p) (kp_pos_vel_covariance p) (kp_vel_variance p) 0 D -> 0 <= K ->
  gap_constant (kp_R p) (kp_pos_variance p) (kp_pos_vel_covariance p) (kp_vel_variance p) D (Z.to_nat cap) <= K * K -> follows_gaps (okf_ops p) 0 cap K.
Proof.
  intros A B C HD HK HC. exact (gaps_followed (FO := okf_ops p) okf_wf eq (okf_regular p) (okf_rewritable p okf_wf) 0 cap _ K (okf_coasts p _ D A B C HD) HK HC).
Qed.
Theorem filterpy_gaps inv (p : fp_params) G cap D (K : R) : inverts_diagonal inv -> 0 < fp_R p -> 0 <= fp_Q p -> 0 < fp_P p ->
  velocity_bound 1 (fp_Q p) (fp_R p) 0 (fp_P p) G D -> 0 <= K ->
  gap_constant (fp_R p) 1 0 (fp_P p) D (Z.to_nat cap) <= K * K -> follows_gaps (fp_ops inv p) G cap K.
Proof.
  intros I A B C HD HK HC.
  exact (gaps_followed (FO := fp_ops inv p) (fp_wf p) fp_same (fp_regular inv p I A B (Rlt_le _ _ C)) (fp_rewritable inv p (fp_wf p)) G cap _ K (fp_coasts inv p G _ D I A B C HD) HK HC).
Qed.

(** The default parameters, for any [hit_counter_max]. *)
Lemma sqrt_4 : sqrt 4 = 2.
Proof. replace 4 with (2 * 2) by lra. apply sqrt_square. lra. Qed.
Lemma cap_INR cap : (0 <= cap)%Z -> INR (S (Z.to_nat cap)) = IZR cap + 1.
Proof. intros H. rewrite S_INR, INR_IZR_INZ, Z2Nat.id by exact H. reflexivity. Qed.
Theorem default_gaps cap : (0 <= cap)%Z ->
  follows_gaps (okf_ops (okf_default_params (N := RNum))) 0 cap (2 + 21 / 20 * (IZR cap + 1)) /\
  forall inv, inverts_diagonal inv -> follows_gaps (fp_ops inv fp_default_params) (Z.to_nat cap) cap (2 / 3 + (IZR cap + 1) * (1 + (IZR cap + 1) / 200)).
Proof.
  intros Hc. pose proof (IZR_le _ _ Hc) as Hc'. destruct defaults_ok as (A & B & C & _). set (t := IZR cap + 1). assert (Ht : 1 <= t) by (unfold t; lra). split.
  - apply (optimized_gaps _ cap (11 / 10)); auto; [| lra|].
    + cbn [okf_default_params kp_R kp_Q kp_pos_vel_covariance kp_vel_variance nofQ RNum]. rewrite ?Q2R_10, ?Q2R_4, ?Q2R_1, ?Q2R_0, ?Q2R_tenth. split; [cbn; lra|]. exists (1 / 8). split; [lra|]. split; [left; lra|]. cbn. lra.
    + cbn [okf_default_params kp_R kp_Q kp_pos_variance kp_pos_vel_covariance kp_vel_variance nofQ RNum]. rewrite ?Q2R_10, ?Q2R_4, ?Q2R_1, ?Q2R_0, ?Q2R_tenth. unfold gap_constant. rewrite sqrt_4, cap_INR by exact Hc. fold t.
      assert (S : sqrt (11 / 10) <= 21 / 20) by (rewrite <- (sqrt_square (21 / 20)) by lra; apply sqrt_le_1; lra). pose proof (sqrt_pos (11 / 10)) as S0.
      assert (U : t * sqrt (11 / 10) <= t * (21 / 20)) by (apply Rmult_le_compat_l; lra). assert (U0 : 0 <= t * sqrt (11 / 10)) by (apply Rmult_le_pos; lra).
      apply Rmax_lub; [apply Rmult_le_compat; lra|]. set (u := 2 + t * sqrt (11 / 10)) in *. replace (u * u * 10 / (10 * 1 - 0 * 0)) with (u * u) by field. apply Rmult_le_compat; unfold u; lra.
  - intros inv H. apply (filterpy_gaps inv _ _ cap (10 + t / 10)); auto; [cbn; lra..| | |].
    + cbn [fp_default_params fp_R fp_Q fp_P]. unfold velocity_bound. rewrite cap_INR by exact Hc. fold t. split; [lra|]. exists 1. split; [lra|]. split; [right; reflexivity|lra].
    + assert (0 <= t * (1 + t / 200)) by (apply Rmult_le_pos; lra). lra.
    + cbn [fp_default_params fp_R fp_Q fp_P]. unfold gap_constant. rewrite sqrt_4, cap_INR by exact Hc. fold t.
      assert (W : 0 <= t * (t / 200)) by (apply Rmult_le_pos; lra).
      set (s := sqrt (10 + t / 10)). pose proof (sqrt_pos (10 + t / 10)) as S0. fold s in S0. assert (S2 : s * s = 10 + t / 10) by (apply sqrt_sqrt; lra).
      apply Rmax_lub; [apply Rmult_le_compat; lra|]. set (K := 2 / 3 + t * (1 + t / 200)).
      set (h := sqrt 10). pose proof (sqrt_lt_R0 10 ltac:(lra)) as H0. fold h in H0. assert (H2 : h * h = 10) by (apply sqrt_sqrt; lra). assert (H3 : 3 <= h) by nra.
      assert (L : s <= h * (1 + t / 200)).
      { apply Rsqr_incr_0_var; [|apply Rmult_le_pos; lra]. unfold Rsqr. replace (h * (1 + t / 200) * (h * (1 + t / 200))) with ((h * h) * ((1 + t / 200) * (1 + t / 200))) by ring. rewrite H2, S2. nra. }
      assert (M : 2 + t * s <= h * K).
      { unfold K. assert (t * s <= t * (h * (1 + t / 200))) by (apply Rmult_le_compat_l; lra). replace (h * (2 / 3 + t * (1 + t / 200))) with (h * (2 / 3) + t * (h * (1 + t / 200))) by ring. lra. }
      assert (M0 : 0 <= 2 + t * s) by (assert (0 <= t * s) by (apply Rmult_le_pos; lra); lra).
      replace ((2 + t * s) * (2 + t * s) * 1 / (1 * 10 - 0 * 0)) with ((2 + t * s) * (2 + t * s) / 10) by field.
      apply (Rmult_le_reg_l 10); [lra|]. replace (10 * ((2 + t * s) * (2 + t * s) / 10)) with ((2 + t * s) * (2 + t * s)) by field. replace (10 * (K * K)) with ((h * K) * (h * K)) by (rewrite <- H2; ring). apply Rmult_le_compat; lra.
Qed.

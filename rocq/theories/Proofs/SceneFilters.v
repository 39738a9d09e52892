(** C88 for the filters of the library. *)
From Coq Require Import ZArith QArith Reals Lra Lia List Arith Permutation.
From Verif Require Import Model.Num Model.Base Model.Filter Model.KalmanMatrix Model.Distances Model.Tracker Spec.KalmanSpec Spec.PointSpec Spec.FollowSpec Spec.ExampleVideo Spec.SceneSpec.
From Verif Require Import Proofs.PointProofs Proofs.FilterTracker Proofs.KalmanTheorems Proofs.FollowFilters Proofs.ReplayProofs Proofs.FollowTracker Proofs.CallTheorems6 Proofs.SceneProofs.
Import ListNotations.
Local Open Scope R_scope.

(* ---- NoFilter ---- *)
Lemma nf_run v x k z0 ms : moves_at v x k z0 ms -> let f := filter_run (nofilter_ops RNum) z0 ms in
  nf_wf (length (flatten z0)) f /\ nth_error (nf_x f) k = Some (x + INR (length ms) * v) /\
  nth_error (nf_x f) (k + length (flatten z0)) = Some 0.
Proof.
  induction ms as [|m ms IH] using rev_ind; intros (A & B & C); cbv zeta.
  - change (filter_run (nofilter_ops RNum) z0 []) with (nf_create z0). assert (Hk : (k < length (flatten z0))%nat) by (apply nth_error_Some; rewrite B; discriminate). unfold nf_wf, nf_create. cbn [nf_x nf_dim_z length INR].
    split; [split; [reflexivity|rewrite app_length, repeat_length; lia]|]. split.
    + rewrite nth_error_app1 by exact Hk. rewrite B. f_equal. cbn. lra.
    + rewrite nth_error_app2 by lia. replace (k + length (flatten z0) - length (flatten z0))%nat with k by lia. apply nth_error_repeat. exact Hk.
  - assert (M : moves_at v x k z0 ms).
    { split; [apply Forall_app in A; apply A|]. split; [exact B|]. intros j m' Hj. apply C. rewrite nth_error_app1; [exact Hj|]. apply nth_error_Some. congruence. }
    destruct (IH M) as ((W1 & W2) & E1 & E2). clear IH. unfold filter_run. rewrite fold_left_app. cbn [fold_left]. fold (filter_run (nofilter_ops RNum) z0 ms).
    set (f := filter_run (nofilter_ops RNum) z0 ms) in *. set (d := length (flatten z0)) in *.
    destruct (C (length ms) m) as [Cm Cz]; [rewrite nth_error_app2, Nat.sub_diag by lia; reflexivity|].
    apply Forall_app in A as [_ A]. inversion A as [|? ? [Lz Lm] _]; subst.
    assert (Hk : (k < d)%nat) by (unfold d; apply nth_error_Some; rewrite B; discriminate).
    assert (Ld : length (map2 (@nadd RNum) (map2 (@nmul RNum) (map bit (me_mask m)) (me_z m)) (map2 (@nmul RNum) (map (fun m0 : RNum => nsub n1 m0) (map bit (me_mask m))) (firstn d (nf_x f)))) = d).
    { rewrite !map2_length, !map_length, firstn_length. rewrite W2. change (num RNum) with R. rewrite Lm, Lz. lia. }
    cbn [nofilter_ops f_update f_predict nf_predict]. unfold nf_update, nf_predict. cbn [nf_x nf_dim_z]. rewrite W1.
    split; [split; [reflexivity|]|split].
    + cbn [nf_x]. rewrite app_length, Ld, skipn_length, W2. lia.
    + rewrite nth_error_app1 by (rewrite Ld; exact Hk).
      assert (X1 : nth_error (map bit (me_mask m)) k = Some (1 : RNum)) by (rewrite nth_error_map, Cm; reflexivity).
      assert (X2 : nth_error (map (fun m0 : RNum => nsub n1 m0) (map bit (me_mask m))) k = Some ((1 - 1) : RNum)) by (rewrite map_map, nth_error_map, Cm; reflexivity).
      assert (X3 : nth_error (firstn d (nf_x f)) k = Some ((x + INR (length ms) * v) : RNum)) by (rewrite nth_error_firstn; destruct (Nat.ltb_spec k d); [exact E1|lia]).
      rewrite (nth_error_map2 (@nadd RNum) _ _ k _ _ (nth_error_map2 (@nmul RNum) _ _ k _ _ X1 Cz) (nth_error_map2 (@nmul RNum) _ _ k _ _ X2 X3)).
      rewrite app_length. cbn [length]. rewrite Nat.add_1_r. f_equal. cbn [nadd nmul RNum num]. change (num RNum) with R. set (t := INR (S (length ms))). set (u := INR (length ms)). exact (ltac:(ring) : 1 * (x + t * v) + (1 - 1) * (x + u * v) = x + t * v).
    + rewrite nth_error_app2 by (rewrite Ld; lia). rewrite Ld. replace (k + d - d)%nat with k by lia. rewrite nth_error_skipn, Nat.add_comm. exact E2.
Qed.
Lemma nf_predicts : predicts_within (nofilter_ops RNum) 1.
Proof.
  intros v z0 ms k x M. destruct (nf_run v x k z0 ms M) as (_ & E & _). exists (x + INR (length ms) * v). split; [exact E|]. rewrite S_INR. 
  replace (x + INR (length ms) * v - (x + (INR (length ms) + 1) * v)) with (- v) by ring. lra.
Qed.
Lemma nf_within : stays_within (nofilter_ops RNum) 0.
Proof.
  intros v z0 ms k x M. destruct (nf_run v x k z0 ms M) as (_ & E & E'). exists (x + INR (length ms) * v), 0. split; [split; [exact E|exact E']|]. 
  replace (x + INR (length ms) * v - (x + INR (length ms) * v)) with 0 by ring. lra.
Qed.

Theorem nofilter_scenes (K : R) : 1 <= K -> follows_scenes (nofilter_ops RNum) K /\ scene_estimates (nofilter_ops RNum) 0.
Proof.
  intros HK. split.
  - apply (scenes_followed nf_wf eq nf_regular (nf_rewritable nf_wf) 1 K nf_predicts); nra.
  - apply scenes_within. apply (tracker_within nf_wf eq 0 nf_regular (nf_rewritable nf_wf) nf_within).
Qed.
Theorem optimized_scenes (p : okf_params RNum) (K : R) : 0 < kp_R p -> 0 <= kp_Q p -> start_pd p -> 0 <= K ->
  prediction_constant (kp_Q p) (kp_Q p) (kp_R p) (kp_pos_variance p) (kp_pos_vel_covariance p) (kp_vel_variance p) <= K * K -> follows_scenes (okf_ops p) K.
Proof.
  intros A B C HK HC. exact (scenes_followed (FO := okf_ops p) okf_wf eq (okf_regular p) (okf_rewritable p okf_wf) _ K (okf_predicts p A B C) HK HC).
Qed.
Theorem filterpy_scenes inv (p : fp_params) (K : R) : inverts_diagonal inv -> 0 < fp_R p -> 0 <= fp_Q p -> 0 < fp_P p -> 0 <= K ->
  prediction_constant 1 (fp_Q p) (fp_R p) 1 0 (fp_P p) <= K * K -> follows_scenes (fp_ops inv p) K.
Proof.
  intros I A B C HK HC. exact (scenes_followed (FO := fp_ops inv p) (fp_wf p) fp_same (fp_regular inv p I A B (Rlt_le _ _ C)) (fp_rewritable inv p (fp_wf p)) _ K (fp_predicts inv p I A B C) HK HC).
Qed.
Theorem optimized_estimates (p : okf_params RNum) : 0 < kp_R p -> 0 <= kp_Q p -> start_pd p ->
  scene_estimates (okf_ops p) (kp_R p * kp_pos_variance p / (kp_pos_variance p * kp_vel_variance p - kp_pos_vel_covariance p * kp_pos_vel_covariance p)) /\
  scene_learned (okf_ops p).
Proof. intros A B C. split; [apply scenes_within, okf_tracker_within; auto|apply scenes_learned, okf_learns; auto]. Qed.
Theorem filterpy_estimates inv (p : fp_params) : inverts_diagonal inv -> 0 < fp_R p -> 0 <= fp_Q p -> 0 < fp_P p ->
  scene_estimates (fp_ops inv p) (fp_R p / fp_P p) /\ scene_learned (fp_ops inv p).
Proof. intros I A B C. split; [apply scenes_within, fp_tracker_within; auto|apply scenes_learned, fp_learns; auto]. Qed.

(** The constants of the default parameters. *)
Lemma optimized_constant : let p := okf_default_params (N := RNum) in
  prediction_constant (kp_Q p) (kp_Q p) (kp_R p) (kp_pos_variance p) (kp_pos_vel_covariance p) (kp_vel_variance p) <= (64 / 10) * (64 / 10).
Proof.
  cbn. rewrite Q2R_10, Q2R_4, Q2R_1, Q2R_0, Q2R_tenth. unfold prediction_constant.
  rewrite (Rmax_left (1 / 10 + 2 * (2 * 4 + 1 / 10))) by lra. apply Rmax_lub; [lra|]. field_simplify. lra.
Qed.
Lemma filterpy_constant : let p := fp_default_params in prediction_constant 1 (fp_Q p) (fp_R p) 1 0 (fp_P p) <= (22 / 10) * (22 / 10).
Proof. cbn. unfold prediction_constant. rewrite (Rmax_left (1 / 10 + 2 * (2 * 4 + 1))) by lra. apply Rmax_lub; [lra|]. field_simplify. lra. Qed.
Theorem default_scenes : follows_scenes (okf_ops (okf_default_params (N := RNum))) (64 / 10) /\
  forall inv, inverts_diagonal inv -> follows_scenes (fp_ops inv fp_default_params) (22 / 10).
Proof.
  destruct defaults_ok as (A & B & C & _). split.
  - apply optimized_scenes; auto; [lra|exact optimized_constant].
  - intros inv H. apply filterpy_scenes; auto; cbn; try lra. exact filterpy_constant.
Qed.

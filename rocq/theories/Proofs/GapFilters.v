(** C96 for the filters of the library. *)
From Coq Require Import ZArith QArith Reals Lra Lia Psatz Bool List Arith.
From Verif Require Import Model.Num Model.Base Model.Filter Model.KalmanMatrix Spec.KalmanSpec Spec.PointSpec Spec.FollowSpec Spec.GapSpec.
From Verif Require Import Proofs.MatrixProofs Proofs.PointProofs Proofs.FilterTracker Proofs.KalmanProofs Proofs.KalmanTheorems Proofs.FollowFilters Proofs.CallTheorems6 Proofs.GapProofs.
Import ListNotations.
Local Open Scope R_scope.

(* ---- NoFilter ---- *)
Lemma nf_gaps v x k z0 ms : moves_with_gaps v x k z0 ms -> let f := gap_run (nofilter_ops RNum) z0 ms in
  nf_wf (length (flatten z0)) f /\ exists pre j, ms = pre ++ repeat None j /\ nth_error (nf_x f) k = Some (x + INR (length pre) * v).
Proof.
  induction ms as [|o ms IH] using rev_ind; intros (B & C); cbv zeta.
  - change (gap_run (nofilter_ops RNum) z0 []) with (nf_create z0). assert (Hk : (k < length (flatten z0))%nat) by (apply nth_error_Some; rewrite B; discriminate). unfold nf_wf, nf_create. cbn [nf_x nf_dim_z length INR].
    split; [split; [reflexivity|rewrite app_length, repeat_length; lia]|]. exists [], O. split; [reflexivity|].
    rewrite nth_error_app1 by exact Hk. rewrite B. f_equal. cbn. lra.
  - assert (M : moves_with_gaps v x k z0 ms).
    { split; [exact B|]. intros j m' Hj. apply C. rewrite nth_error_app1; [exact Hj|]. apply nth_error_Some. congruence. }
    destruct (IH M) as ((W1 & W2) & pre & j & Em & E1). clear IH. unfold gap_run. rewrite fold_left_app. cbn [fold_left]. fold (gap_run (nofilter_ops RNum) z0 ms).
    set (f := gap_run (nofilter_ops RNum) z0 ms) in *. set (d := length (flatten z0)) in *.
    destruct o as [m|].
    2: { split; [exact (conj W1 W2)|]. exists pre, (S j). split; [rewrite Em, <- app_assoc, rep_S; reflexivity|exact E1]. }
    destruct (C (length ms) m) as ((Lz & Lm) & Cm & Cz); [rewrite nth_error_app2, Nat.sub_diag by lia; reflexivity|].
    assert (Hk : (k < d)%nat) by (unfold d; apply nth_error_Some; rewrite B; discriminate).
    assert (Ld : length (map2 (@nadd RNum) (map2 (@nmul RNum) (map bit (me_mask m)) (me_z m)) (map2 (@nmul RNum) (map (fun m0 : RNum => nsub n1 m0) (map bit (me_mask m))) (firstn d (nf_x f)))) = d).
    { rewrite !map2_length, !map_length, firstn_length. rewrite W2. change (num RNum) with R. rewrite Lm, Lz. lia. }
    cbn [nofilter_ops f_update f_predict nf_predict]. unfold nf_update, nf_predict. cbn [nf_x nf_dim_z]. rewrite W1.
    split; [split; [reflexivity|]|].
    + cbn [nf_x]. rewrite app_length, Ld, skipn_length, W2. lia.
    + exists (ms ++ [Some m]), O. split; [cbn; rewrite app_nil_r; reflexivity|]. rewrite nth_error_app1 by (rewrite Ld; exact Hk).
      assert (X1 : nth_error (map bit (me_mask m)) k = Some (1 : RNum)) by (rewrite nth_error_map, Cm; reflexivity).
      assert (X2 : nth_error (map (fun m0 : RNum => nsub n1 m0) (map bit (me_mask m))) k = Some ((1 - 1) : RNum)) by (rewrite map_map, nth_error_map, Cm; reflexivity).
      assert (X3 : nth_error (firstn d (nf_x f)) k = Some ((x + INR (length pre) * v) : RNum)) by (rewrite nth_error_firstn; destruct (Nat.ltb_spec k d); [exact E1|lia]).
      rewrite (nth_error_map2 (@nadd RNum) _ _ k _ _ (nth_error_map2 (@nmul RNum) _ _ k _ _ X1 Cz) (nth_error_map2 (@nmul RNum) _ _ k _ _ X2 X3)).
      rewrite app_length. cbn [length]. rewrite Nat.add_1_r. f_equal. cbn [nadd nmul RNum num]. change (num RNum) with R. set (t := INR (S (length ms))). set (u := INR (length pre)). exact (ltac:(ring) : 1 * (x + t * v) + (1 - 1) * (x + u * v) = x + t * v).
Qed.
Theorem nf_coasts G T : coasts_within (nofilter_ops RNum) G T (INR (S T) * INR (S T)).
Proof.
  intros v z0 ms k x M _ Tm. destruct (nf_gaps v x k z0 ms M) as (_ & pre & j & -> & E). exists (x + INR (length pre) * v). split; [exact E|].
  assert (Hj : (j <= T)%nat). { rewrite <- (repeat_length (@None measurement) j). apply (Tm pre); [reflexivity|apply misses_repeat]. }
  rewrite app_length, repeat_length. replace (x + INR (length pre) * v - (x + INR (S (length pre + j)) * v)) with (- (INR (S j) * v)) by (rewrite !S_INR, plus_INR; ring).
  replace (- (INR (S j) * v) * - (INR (S j) * v)) with (INR (S j) * INR (S j) * (v * v)) by ring. apply Rmult_le_compat_r; [apply Rle_0_sqr|].
  assert (INR (S j) <= INR (S T)) by (apply le_INR; lia). pose proof (pos_INR (S j)). apply Rmult_le_compat; lra.
Qed.

(* ---- the optimized filter, without gaps ---- *)
Theorem okf_coasts (p : okf_params RNum) T D : 0 < kp_R p -> 0 <= kp_Q p -> start_pd p ->
  velocity_bound (kp_Q p) (kp_Q p) (kp_R p) (kp_pos_vel_covariance p) (kp_vel_variance p) 0 D ->
  coasts_within (okf_ops p) 0 T (gap_constant (kp_R p) (kp_pos_variance p) (kp_pos_vel_covariance p) (kp_vel_variance p) D T).
Proof.
  intros HR HQ (A & B & C) HD. eapply (generic_coasts (okf_ops p) (kp_Q p) (kp_Q p) (kp_R p) _ _ _ 0 T HQ HQ HR A B C (okf_rel p)).
  - exact (okf_rel_start p).
  - exact (okf_rel_step p HR HQ).
  - exact (okf_rel_out p).
  - intros d k f c [I E]. pose proof (okf_do_inv p d f Predict I Logic.I) as I1. pose proof (okf_do_coord p d f Predict k c I Logic.I E) as C1.
    eexists. split; [split; [exact I1|exact C1]|]. split; reflexivity.
  - exact HD.
  - left. reflexivity.
Qed.

(* ---- filterpy ---- *)
Theorem fp_coasts inv (p : fp_params) G T D : inverts_diagonal inv -> 0 < fp_R p -> 0 <= fp_Q p -> 0 < fp_P p ->
  velocity_bound 1 (fp_Q p) (fp_R p) 0 (fp_P p) G D ->
  coasts_within (fp_ops inv p) G T (gap_constant (fp_R p) 1 0 (fp_P p) D T).
Proof.
  intros I HR HQ HP HD.
  assert (Gap : forall d k (f : fstate (fp_ops inv p)) c, fp_rel p d k f c -> fp_rel p d k (f_predict (fp_ops inv p) f) (c2_predict 1 (fp_Q p) c)).
  { intros d k f c (Hk & <- & E & cf & L & Q & Ec).
    assert (L1 : like (fpf_dim_z f) (fun k => c2_predict 1 (fp_Q p) (cf k)) (fpf_state (fp_predict f))).
    { cbn. apply kf_predict_like; auto. rewrite E. intros i j _ _. reflexivity. }
    split; [exact Hk|]. split; [reflexivity|]. split; [exact E|]. eexists. split; [exact L1|]. split; [intros j Hj; apply c2_predict_qpsd; auto; lra|]. cbn. rewrite Ec. reflexivity. }
  eapply (generic_coasts (fp_ops inv p) 1 (fp_Q p) (fp_R p) 1 0 (fp_P p) G T) with (Rel := fp_rel p); auto; try lra.
  - exact (fp_rel_start p HP).
  - exact (fp_rel_step inv p I HR HQ).
  - exact (fp_rel_out p).
  - intros d k f c H. eexists. split; [apply Gap, H|]. split; reflexivity.
Qed.

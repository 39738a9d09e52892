(** C91: things that change their speed and are detected inexactly. *)
From Coq Require Import ZArith QArith Reals Lra List Arith Lia Permutation.
From Verif Require Import Model.Num Model.Base Model.Filter Model.KalmanMatrix Model.Distances Model.Tracker Spec.KalmanSpec Spec.BuiltinSpec Spec.ExampleVideo
  Spec.FollowSpec Spec.SceneSpec Spec.NoisySpec Proofs.KalmanTheorems Proofs.NoisyFilters.
From Verif Require Import Spec.CallSpec Spec.PointSpec.
Import ListNotations.
Local Open Scope R_scope.

(** C91: the errors of the filters stay bounded for ever. *)
Theorem C91_optimized (p : okf_params RNum) v acc eps : 0 < kp_R p -> 0 < kp_Q p -> start_pd p -> 0 <= eps ->
  keeps_near (okf_ops p) (wanders v acc) eps
    (noisy_bound (kp_Q p) (kp_Q p) (kp_R p) (kp_pos_variance p) (kp_pos_vel_covariance p) (kp_vel_variance p) v acc eps).
Proof. exact (fun A B C => okf_noisy p A B C v acc eps). Qed.
Print Assumptions C91_optimized.
Theorem C91_filterpy inv (p : fp_params) v acc eps : inverts_diagonal inv -> 0 < fp_R p -> 0 < fp_Q p -> 0 < fp_P p -> 0 <= eps ->
  keeps_near (fp_ops inv p) (wanders v acc) eps (noisy_bound 1 (fp_Q p) (fp_R p) 1 0 (fp_P p) v acc eps).
Proof. exact (fun I A B C => fp_noisy inv p I A B C v acc eps). Qed.
Print Assumptions C91_filterpy.
Theorem C91_nofilter v eps : 0 <= v -> 0 <= eps -> keeps_near (nofilter_ops RNum) (slow v) eps (fun _ => v + eps).
Proof. exact (nf_noisy v eps). Qed.
Print Assumptions C91_nofilter.

(** C91: in the long run only the acceleration and the errors of the detections count. *)
Theorem C91_fades qp qv r a0 b0 d0 v acc eps eta : 0 < qp -> 0 < qv -> 0 < a0 -> 0 < d0 -> 0 < eta ->
  0 <= fading qp qv r a0 d0 < 1 /\
  exists k0, forall k, (k0 <= k)%nat ->
  noisy_bound qp qv r a0 b0 d0 v acc eps k <= sqrt (2 * uncertainty qp qv r a0 d0) * ((acc / sqrt qv + eps / sqrt r) / (1 - fading qp qv r a0 d0)) + eta.
Proof. exact (bound_fades qp qv r a0 b0 d0 v acc eps eta). Qed.
Print Assumptions C91_fades.

(** C91: whole scenes. *)
Theorem C91_optimized_scenes (p : okf_params RNum) v acc eps reach : 0 < kp_R p -> 0 < kp_Q p -> start_pd p -> 0 <= v -> 0 <= eps ->
  let bound := noisy_bound (kp_Q p) (kp_Q p) (kp_R p) (kp_pos_variance p) (kp_pos_vel_covariance p) (kp_vel_variance p) v acc eps in
  bound 0%nat + eps <= reach -> follows_noisy_scenes (okf_ops p) (wanders v acc) eps reach bound.
Proof. exact (fun A B C => okf_noisy_scenes p A B C v acc eps reach). Qed.
Print Assumptions C91_optimized_scenes.
Theorem C91_filterpy_scenes inv (p : fp_params) v acc eps reach : inverts_diagonal inv -> 0 < fp_R p -> 0 < fp_Q p -> 0 < fp_P p -> 0 <= v -> 0 <= eps ->
  let bound := noisy_bound 1 (fp_Q p) (fp_R p) 1 0 (fp_P p) v acc eps in
  bound 0%nat + eps <= reach -> follows_noisy_scenes (fp_ops inv p) (wanders v acc) eps reach bound.
Proof. exact (fun I A B C => fp_noisy_scenes inv p I A B C v acc eps reach). Qed.
Print Assumptions C91_filterpy_scenes.
Theorem C91_nofilter_scenes v eps : 0 <= v -> 0 <= eps ->
  follows_noisy_scenes (nofilter_ops RNum) (slow v) eps (v + 2 * eps) (fun _ => v + eps).
Proof. exact (nofilter_noisy_scenes v eps). Qed.
Print Assumptions C91_nofilter_scenes.

(* ---- concrete cases ---- *)
(** Two things of one point, far apart, that accelerate all the time; each detection is off by 1/100, in turns to the
    left and to the right. *)
Definition ex91_truth (a i j k : nat) : R := match j with O => INR k * INR k / 200 | _ => 2000 * INR a end.
Definition ex91_shown (a k : nat) : points RNum := [[INR k * INR k / 200 + (if Nat.even k then 1 / 100 else - (1 / 100)); 2000 * INR a]].
Definition ex91_ref (k a : nat) : nat := (2 * k + a)%nat.
Definition ex91_det (k a : nat) : detection RNum := new_detection (ex91_shown a k) None [] LNone.
Definition ex91_call (k : nat) : input RNum :=
  MkInput [(ex91_ref k 0, ex91_det k 0); (ex91_ref k 1, ex91_det k 1)]
    (if Nat.even k then [ex91_ref k 0; ex91_ref k 1] else [ex91_ref k 1; ex91_ref k 0]) 1 None.
Definition ex91_conf (FO : filter_ops RNum) : tconf FO :=
  MkTconf (ScalarDistance (on_points mean_manhattan_arrays)) (@DFin RNum 1000) 15 3 4 (0 : RNum) 4 None (@DFin RNum 0) None (fun d => d).
Example ex91_tracker FO : scene_tracker mean_manhattan_arrays 1000 (ex91_conf FO).
Proof. constructor; auto. cbn. lia. Qed.
Example ex91_wanders a i j : wanders (1 / 100) (1 / 100) (ex91_truth a i j).
Proof.
  destruct j as [|j]; split; unfold ex91_truth.
  - cbn. rewrite Rabs_right; lra.
  - intros k. rewrite !S_INR. set (t := INR k). match goal with |- Rabs ?e <= _ => replace e with (1 / 100) by field end. rewrite Rabs_right; lra.
  - rewrite Rminus_diag_eq, Rabs_R0 by reflexivity. lra.
  - intros k. match goal with |- Rabs ?e <= _ => replace e with 0 by ring end. rewrite Rabs_R0. lra.
Qed.
Example ex91_scene FO calls : noisy_scene 1 2 2 ex91_truth ex91_shown (fun _ => LNone) ex91_ref (wanders (1 / 100) (1 / 100)) (1 / 100) (tc_det_thr (ex91_conf FO)) (map ex91_call (seq 0 calls)).
Proof.
  assert (H : forall k y, nth_error (map ex91_call (seq 0 calls)) k = Some y -> y = ex91_call k).
  { intros k y E. rewrite nth_error_map in E. destruct (nth_error (seq 0 calls) k) as [j|] eqn:Ej; [|discriminate]. cbn in E.
    assert (L : (k < length (seq 0 calls))%nat) by (apply nth_error_Some; congruence). apply (nth_error_nth _ _ 0%nat) in Ej. rewrite seq_length in L. rewrite seq_nth in Ej by exact L. cbn in Ej. congruence. }
  constructor.
  - intros a k _. split; [reflexivity|]. repeat constructor.
  - intros a i j _ _ _. apply ex91_wanders.
  - intros a i j k _ Hi Hj. destruct i as [|i]; [|lia]. unfold entry, ex91_shown, ex91_truth. destruct j as [|[|j]]; [| |lia]; cbn [nth].
    + set (t := INR k * INR k / 200). destruct (Nat.even k).
      * replace (t + 1 / 100 - t) with (1 / 100) by ring. rewrite Rabs_right; lra.
      * replace (t + - (1 / 100) - t) with (- (1 / 100)) by ring. rewrite Rabs_Ropp, Rabs_right; lra.
    + rewrite Rminus_diag_eq, Rabs_R0 by reflexivity. lra.
  - unfold ex91_ref. intros k k' a a' Ha Ha' E. lia.
  - intros k y E. apply H in E. subst y. cbn [ex91_call in_period in_ct in_dets in_new]. split; [reflexivity|]. split; [reflexivity|]. cbn [seq map fst].
    split; [|reflexivity]. destruct (Nat.even k); [reflexivity|]. apply perm_swap.
  - intros k y a d E Ha Hd. apply H in E. subst y. unfold ex91_call in Hd. cbn [in_new] in Hd.
    assert (D : d = ex91_det k a).
    { destruct Hd as [Hd|[Hd|[]]]; injection Hd as Hr <-; unfold ex91_ref in Hr; (destruct a as [|[|a]]; [| |lia]); try reflexivity; lia. }
    subst d. cbn [ex91_det new_detection d_points d_absolute_points d_label d_scores]. repeat split; discriminate.
Qed.
Example ex91_apart calls : kept_apart 1 2 2 ex91_shown (fun _ => LNone) mean_manhattan_arrays 400 1000 calls.
Proof.
  exists 800. split; [|split; [lra|]].
  - cbn. unfold norm1. cbn. do 2 f_equal. unfold Rabs. repeat destruct (Rcase_abs _); lra.
  - intros a b k Ha Hb Hab _ _. exists 2000. split; [|lra]. unfold ex91_shown. set (t := INR k * INR k / 200 + _). cbn. unfold norm1. cbn. do 2 f_equal.
    assert (E : (a = 0 /\ b = 1 \/ a = 1 /\ b = 0)%nat) by lia. destruct E as [[-> ->]|[-> ->]]; cbn; unfold Rabs; repeat destruct (Rcase_abs _); lra.
Qed.
(** The bound of the default parameters. *)
Example ex91_bound : let p := okf_default_params (N := RNum) in
  noisy_bound (kp_Q p) (kp_Q p) (kp_R p) (kp_pos_variance p) (kp_pos_vel_covariance p) (kp_vel_variance p) (1 / 100) (1 / 100) (1 / 100) 0 + 1 / 100 <= 400.
Proof.
  cbn [okf_default_params kp_Q kp_R kp_pos_variance kp_pos_vel_covariance kp_vel_variance]. cbn. rewrite Q2R_10, Q2R_4, Q2R_1, Q2R_0, Q2R_tenth.
  assert (U : uncertainty (1 / 10) (1 / 10) 4 10 1 = 203 / 10).
  { unfold uncertainty. rewrite (Rmax_left (1 / 10 + 2 * (2 * 4 + 1 / 10))) by lra. rewrite Rmax_right; lra. }
  assert (F : fading (1 / 10) (1 / 10) 4 10 1 <= 1299 / 1300).
  { unfold fading. rewrite U, Rmin_left by lra. replace (1299 / 1300) with (sqrt (1299 / 1300 * (1299 / 1300))) by (apply sqrt_square; lra). apply sqrt_le_1_alt. lra. }
  unfold noisy_bound. rewrite U. set (f := fading (1 / 10) (1 / 10) 4 10 1) in *. cbn [pow].
  assert (S1 : sqrt (2 * (203 / 10)) <= 64 / 10) by (replace (64 / 10) with (sqrt (64 / 10 * (64 / 10))) by (apply sqrt_square; lra); apply sqrt_le_1_alt; lra).
  assert (S2 : 3 / 10 <= sqrt (1 / 10)) by (replace (3 / 10) with (sqrt (3 / 10 * (3 / 10))) by (apply sqrt_square; lra); apply sqrt_le_1_alt; lra).
  assert (S3 : sqrt 4 = 2) by (replace 4 with (2 * 2) by ring; apply sqrt_square; lra).
  assert (S4 : sqrt (1 / (10 * 1 - 0 * 0)) <= 1) by (eapply Rle_trans; [apply (sqrt_le_1_alt _ 1); lra|rewrite sqrt_1; lra]).
  assert (S5 : sqrt (10 / (10 * 1 - 0 * 0)) <= 1) by (eapply Rle_trans; [apply (sqrt_le_1_alt _ 1); lra|rewrite sqrt_1; lra]).
  rewrite S3. pose proof (sqrt_pos (2 * (203 / 10))) as S0.
  assert (A : 1 / 100 / sqrt (1 / 10) <= 1 / 30).
  { unfold Rdiv at 1. replace (1 / 30) with (1 / 100 * / (3 / 10)) by field. apply Rmult_le_compat_l; [lra|]. apply Rinv_le_contravar; lra. }
  assert (B : (1 / 100 / sqrt (1 / 10) + 1 / 100 / 2) / (1 - f) <= (1 / 30 + 1 / 200) * 1300).
  { apply Rmult_le_compat; [| |lra|].
    - assert (0 < 1 / 100 / sqrt (1 / 10)) by (apply Rdiv_lt_0_compat; lra). lra.
    - left. apply Rinv_0_lt_compat. lra.
    - replace 1300 with (/ (1 / 1300)) by field. apply Rinv_le_contravar; lra. }
  set (X := (1 / 100 / sqrt (1 / 10) + 1 / 100 / 2) / (1 - f)) in *. pose proof (sqrt_pos (1 / (10 * 1 - 0 * 0))). pose proof (sqrt_pos (10 / (10 * 1 - 0 * 0))).
  set (s4 := sqrt (1 / (10 * 1 - 0 * 0))) in *. set (s5 := sqrt (10 / (10 * 1 - 0 * 0))) in *.
  assert (T : 1 * (1 / 100 * s4 + 1 / 100 * s5) + X <= 50) by lra.
  apply (Rle_trans _ (sqrt (2 * (203 / 10)) * 50 + 1 / 100)); [apply Rplus_le_compat_r, Rmult_le_compat_l; lra|lra].
Qed.
(** With the default filter all is as the theorem says, for any number of calls. *)
Example ex91_followed calls heap g dummy : exists fs thing_of,
  play (ex91_conf (okf_ops okf_default_params)) (Spec.ProgressSpec.new_tracker heap g dummy) (map ex91_call (seq 0 calls)) = Some fs /\
  length fs = length (map ex91_call (seq 0 calls)) /\ all_followed 2 ex91_ref 3 thing_of fs.
Proof.
  assert (D : 0 < kp_R (okf_default_params (N := RNum)) /\ 0 < kp_Q (okf_default_params (N := RNum)) /\ start_pd (okf_default_params (N := RNum))).
  { destruct defaults_ok as (A & _ & C & _). split; [exact A|]. split; [|exact C]. cbn. rewrite Q2R_tenth. lra. }
  destruct D as (A & B & C).
  destruct (C91_optimized_scenes okf_default_params (1 / 100) (1 / 100) (1 / 100) 400 A B C ltac:(lra) ltac:(lra) ex91_bound 1%nat 2%nat 2%nat ex91_truth ex91_shown (fun _ => LNone) ex91_ref mean_manhattan_arrays 1000
    (ex91_conf (okf_ops okf_default_params)) (map ex91_call (seq 0 calls)) heap g dummy (le_n _) ltac:(lia) ltac:(cbn; auto) (ex91_tracker _) (ex91_scene _ calls)
    (ex91_apart _)) as (fs & th & E1 & E2 & E3 & _).
  exists fs, th. auto.
Qed.
(** NoFilter: the things move by at most 1/5 in the first 20 calls. *)
Example ex91_slow a i j : slow (1 / 5) (fun k => ex91_truth a i j (Nat.min k 19)).
Proof.
  intros k. unfold ex91_truth. destruct j as [|j]; [|rewrite Rminus_diag_eq, Rabs_R0 by reflexivity; lra].
  destruct (le_lt_dec 19 k) as [H|H].
  - rewrite !Nat.min_r by lia. rewrite Rminus_diag_eq, Rabs_R0 by reflexivity. lra.
  - rewrite !Nat.min_l by lia. rewrite S_INR. assert (K : INR k <= INR 18) by (apply le_INR; lia). cbn in K. assert (0 <= INR k) by apply pos_INR.
    replace ((INR k + 1) * (INR k + 1) / 200 - INR k * INR k / 200) with ((2 * INR k + 1) / 200) by field. rewrite Rabs_right; lra.
Qed.

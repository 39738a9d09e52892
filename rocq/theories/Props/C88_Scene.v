(** C88: steadily moving things that are told apart are followed. *)
From Coq Require Import ZArith QArith Reals Lra List Arith Lia Permutation.
From Verif Require Import Model.Num Model.Base Model.Filter Model.KalmanMatrix Model.Distances Model.Tracker Spec.KalmanSpec Spec.ExampleVideo
  Spec.FollowSpec Spec.SceneSpec Proofs.KalmanTheorems Proofs.SceneFilters.
From Verif Require Import Spec.CallSpec Spec.PointSpec.
Import ListNotations.
Local Open Scope R_scope.

Theorem C88_optimized (p : okf_params RNum) (K : R) : 0 < kp_R p -> 0 <= kp_Q p -> start_pd p -> 0 <= K ->
  prediction_constant (kp_Q p) (kp_Q p) (kp_R p) (kp_pos_variance p) (kp_pos_vel_covariance p) (kp_vel_variance p) <= K * K ->
  follows_scenes (okf_ops p) K.
Proof. exact (optimized_scenes p K). Qed.
Print Assumptions C88_optimized.
Theorem C88_filterpy inv (p : fp_params) (K : R) : inverts_diagonal inv -> 0 < fp_R p -> 0 <= fp_Q p -> 0 < fp_P p -> 0 <= K ->
  prediction_constant 1 (fp_Q p) (fp_R p) 1 0 (fp_P p) <= K * K -> follows_scenes (fp_ops inv p) K.
Proof. exact (filterpy_scenes inv p K). Qed.
Print Assumptions C88_filterpy.
Theorem C88_nofilter (K : R) : 1 <= K -> follows_scenes (nofilter_ops RNum) K /\ scene_estimates (nofilter_ops RNum) 0.
Proof. exact (nofilter_scenes K). Qed.
Print Assumptions C88_nofilter.

(** Where the estimates are. *)
Theorem C88_optimized_estimates (p : okf_params RNum) : 0 < kp_R p -> 0 <= kp_Q p -> start_pd p ->
  scene_estimates (okf_ops p) (kp_R p * kp_pos_variance p / (kp_pos_variance p * kp_vel_variance p - kp_pos_vel_covariance p * kp_pos_vel_covariance p)) /\
  scene_learned (okf_ops p).
Proof. exact (optimized_estimates p). Qed.
Print Assumptions C88_optimized_estimates.
Theorem C88_filterpy_estimates inv (p : fp_params) : inverts_diagonal inv -> 0 < fp_R p -> 0 <= fp_Q p -> 0 < fp_P p ->
  scene_estimates (fp_ops inv p) (fp_R p / fp_P p) /\ scene_learned (fp_ops inv p).
Proof. exact (filterpy_estimates inv p). Qed.
Print Assumptions C88_filterpy_estimates.

(** With the default parameters. *)
Theorem C88_defaults : follows_scenes (okf_ops (okf_default_params (N := RNum))) (64 / 10) /\
  forall inv, inverts_diagonal inv -> follows_scenes (fp_ops inv fp_default_params) (22 / 10).
Proof. exact default_scenes. Qed.
Print Assumptions C88_defaults.

(* ---- concrete cases ---- *)
(** Two things of one point, 100 apart, moving side by side; any number of calls; the order of the detections alternates. *)
Definition ex88_x (a : nat) : points RNum := [[0; 100 * INR a]].
Definition ex88_v (_ : nat) : points RNum := [[1; -1 / 2]].
Definition ex88_ref (k a : nat) : nat := (2 * k + a)%nat.
Definition ex88_det (k a : nat) : detection RNum := new_detection (position (ex88_x a) (ex88_v a) k) None [] LNone.
Definition ex88_call (k : nat) : input RNum :=
  MkInput [(ex88_ref k 0, ex88_det k 0); (ex88_ref k 1, ex88_det k 1)]
    (if Nat.even k then [ex88_ref k 0; ex88_ref k 1] else [ex88_ref k 1; ex88_ref k 0]) 1 None.
Definition ex88_conf (FO : filter_ops RNum) : tconf FO :=
  MkTconf (ScalarDistance (on_points mean_manhattan_arrays)) (@DFin RNum 10) 15 3 4 (0 : RNum) 4 None (@DFin RNum 0) None (fun d => d).
Example ex88_tracker FO : scene_tracker mean_manhattan_arrays 10 (ex88_conf FO).
Proof. constructor; auto. cbn. lia. Qed.
Example ex88_scene FO calls : steady_scene 1 2 2 ex88_x ex88_v (fun _ => LNone) ex88_ref (tc_det_thr (ex88_conf FO)) (map ex88_call (seq 0 calls)).
Proof.
  assert (H : forall k y, nth_error (map ex88_call (seq 0 calls)) k = Some y -> y = ex88_call k).
  { intros k y E. rewrite nth_error_map in E. destruct (nth_error (seq 0 calls) k) as [j|] eqn:Ej; [|discriminate]. cbn in E.
    assert (L : (k < length (seq 0 calls))%nat) by (apply nth_error_Some; congruence). apply (nth_error_nth _ _ 0%nat) in Ej. rewrite seq_length in L. rewrite seq_nth in Ej by exact L. cbn in Ej. congruence. }
  constructor.
  - intros a _. repeat split; repeat constructor.
  - unfold ex88_ref. intros k k' a a' Ha Ha' E. lia.
  - intros k y E. apply H in E. subst y. cbn [ex88_call in_period in_ct in_dets in_new]. split; [reflexivity|]. split; [reflexivity|]. cbn [seq map fst].
    split; [|reflexivity]. destruct (Nat.even k); [reflexivity|]. apply perm_swap.
  - intros k y a d E Ha Hd. apply H in E. subst y. unfold ex88_call in Hd. cbn [in_new] in Hd.
    assert (D : d = ex88_det k a).
    { destruct Hd as [Hd|[Hd|[]]]; injection Hd as Hr <-; unfold ex88_ref in Hr; (destruct a as [|[|a]]; [| |lia]); try reflexivity; lia. }
    subst d. cbn. repeat split; try discriminate; auto.
Qed.
Example ex88_apart K calls : 0 <= K < 20 / 3 -> told_apart 2 ex88_x ex88_v (fun _ => LNone) mean_manhattan_arrays K 10 calls.
Proof.
  intros HK. assert (S : forall a, mean_manhattan_arrays (position (ex88_x a) (ex88_v a) 1) (position (ex88_x a) (ex88_v a) 0) = Ret (@DFin RNum (3 / 2))).
  { intros a. cbn. unfold norm1. cbn. do 2 f_equal. unfold Rabs. repeat destruct (Rcase_abs _); lra. }
  constructor.
  - intros a _. exists (3 / 2). split; [apply S|lra].
  - intros a b k Ha Hb Hab _ _. exists 100, (3 / 2). split; [|split; [apply S|lra]]. cbn. unfold norm1. cbn. do 2 f_equal.
    assert (E : (a = 0 /\ b = 1 \/ a = 1 /\ b = 0)%nat) by lia. set (t := INR k). destruct E as [[-> ->]|[-> ->]]; cbn; unfold Rabs; repeat destruct (Rcase_abs _); lra.
Qed.
(** With the default filters all is as the theorems say, for any number of calls. *)
Example ex88_followed calls heap g dummy : exists fs thing_of,
  play (ex88_conf (okf_ops okf_default_params)) (Spec.ProgressSpec.new_tracker heap g dummy) (map ex88_call (seq 0 calls)) = Some fs /\
  length fs = length (map ex88_call (seq 0 calls)) /\ all_followed 2 ex88_ref 3 thing_of fs.
Proof.
  destruct defaults_ok as (A & B & C & _).
  exact (C88_optimized okf_default_params (64 / 10) A B C ltac:(lra) optimized_constant 1%nat 2%nat 2%nat ex88_x ex88_v (fun _ => LNone) ex88_ref mean_manhattan_arrays 10
    (ex88_conf (okf_ops okf_default_params)) (map ex88_call (seq 0 calls)) heap g dummy (le_n _) ltac:(lia) ltac:(cbn; auto) (ex88_tracker _) (ex88_scene _ calls)
    (ex88_apart (64 / 10) _ ltac:(lra))).
Qed.

(** C85: a steady motion is learned. *)
From Coq Require Import ZArith QArith Qcanon Reals Lra Bool List Arith Lia.
From Verif Require Import Model.Num Model.Base Model.Filter Model.KalmanMatrix Model.Tracker Spec.KalmanSpec Spec.ExampleVideo Spec.ExamplePoints
  Spec.FollowSpec Proofs.KalmanTheorems Proofs.FollowFilters Proofs.FollowTracker.
From Verif Require Import Spec.CallSpec Spec.PointSpec.
Import ListNotations.
Local Open Scope R_scope.

(** Tracked objects: estimate and velocity become as exact as desired ... *)
Theorem C85_optimized_learns (p : okf_params RNum) : 0 < kp_R p -> 0 <= kp_Q p -> start_pd p -> tracker_learns (okf_ops p).
Proof. exact (okf_learns p). Qed.
Print Assumptions C85_optimized_learns.
Theorem C85_filterpy_learns inv (p : fp_params) : inverts_diagonal inv -> 0 < fp_R p -> 0 <= fp_Q p -> 0 < fp_P p ->
  tracker_learns (fp_ops inv p).
Proof. exact (fp_learns inv p). Qed.
Print Assumptions C85_filterpy_learns.

(** ... and are never far off. *)
Theorem C85_optimized_within (p : okf_params RNum) : 0 < kp_R p -> 0 <= kp_Q p -> start_pd p -> tracker_stays_within (okf_ops p)
  (kp_R p * kp_pos_variance p / (kp_pos_variance p * kp_vel_variance p - kp_pos_vel_covariance p * kp_pos_vel_covariance p)).
Proof. exact (okf_tracker_within p). Qed.
Print Assumptions C85_optimized_within.
Theorem C85_filterpy_within inv (p : fp_params) : inverts_diagonal inv -> 0 < fp_R p -> 0 <= fp_Q p -> 0 < fp_P p ->
  tracker_stays_within (fp_ops inv p) (fp_R p / fp_P p).
Proof. exact (fp_tracker_within inv p). Qed.
Print Assumptions C85_filterpy_within.

(** The filters alone, and the position they predict for the next call. *)
Theorem C85_optimized_filter (p : okf_params RNum) : 0 < kp_R p -> 0 <= kp_Q p -> start_pd p ->
  follows (okf_ops p) /\
  predicts_within (okf_ops p) (prediction_constant (kp_Q p) (kp_Q p) (kp_R p) (kp_pos_variance p) (kp_pos_vel_covariance p) (kp_vel_variance p)).
Proof. exact (fun A B C => conj (okf_follows p A B C) (okf_predicts p A B C)). Qed.
Print Assumptions C85_optimized_filter.
Theorem C85_filterpy_filter inv (p : fp_params) : inverts_diagonal inv -> 0 < fp_R p -> 0 <= fp_Q p -> 0 < fp_P p ->
  follows (fp_ops inv p) /\ predicts_within (fp_ops inv p) (prediction_constant 1 (fp_Q p) (fp_R p) 1 0 (fp_P p)).
Proof. exact (fun I A B C => conj (fp_follows inv p I A B C) (fp_predicts inv p I A B C)). Qed.
Print Assumptions C85_filterpy_filter.

(* ---- concrete cases ---- *)
(** The default parameters qualify; the estimate is then never more than 2 |v| away (optimized). *)
Example ex85_defaults : let p := okf_default_params (N := RNum) in 0 < kp_R p /\ 0 <= kp_Q p /\ start_pd p /\
  kp_R p * kp_pos_variance p / (kp_pos_variance p * kp_vel_variance p - kp_pos_vel_covariance p * kp_pos_vel_covariance p) = 4.
Proof. destruct defaults_ok as (A & B & C & _). repeat (split; [assumption|]). cbn. unfold Q2R. cbn. field. Qed.
Example ex85_filterpy : 0 < fp_R fp_default_params /\ 0 <= fp_Q fp_default_params /\ 0 < fp_P fp_default_params.
Proof. cbn. lra. Qed.

(** Two coordinates; the second one moves with speed 3 and is measured, the first one is not. *)
Example ex85_moves : moves_at 3 5 1 [[0; 5]] [MkMeas [100; 8] [false; true]; MkMeas [50; 11] [true; true]].
Proof.
  split; [repeat constructor|]. split; [reflexivity|].
  intros [|[|j]] m H; [injection H as <-|injection H as <-|destruct j; discriminate]; (split; [reflexivity|]); cbn; f_equal; lra.
Qed.

(** An object of two points, over the rationals: the first point moves with speed 4, the second one rests.  Position and
    velocity of the first point, in thousandths rounded down, in the calls 0 to 12; the second point is estimated exactly. *)
Definition ex85 : list (frame kF) := frames (pt_conf kF) (pt_start kF)
  (map (fun k => pt_at (S k) [[inject_Z (4 * Z.of_nat k)]; [10]]%Q [1; 1]%Q) (seq 0 13)).
Definition thousandths (x : Q) : Z := (Qnum x * 1000 / Zpos (Qden x))%Z.
Example ex85_outcome : map (fun f => map (map thousandths) (show (absolute_estimate (s_store (f_post f) 1)) ++
    show (estimate_velocity (s_store (f_post f) 1)))) ex85 =
  map (fun x : Z * Z => [[fst x]; [10000]; [snd x]; [0]]%Z)
    [(0, 0); (2940, 264); (5770, 988); (9500, 1951); (13838, 2756); (18340, 3295); (22803, 3630); (27179, 3833); (31469, 3955);
     (35686, 4024); (39840, 4058); (43944, 4070); (48008, 4068)]%Z.
Proof. vm_compute. reflexivity. Qed.

(** C103: estimates are weighted sums of the measurements, with weights fixed beforehand. *)
From Coq Require Import Reals Qreals Lra Bool Arith List.
From Verif Require Import Model.Num Model.Base Model.Filter Model.KalmanMatrix
  Spec.KalmanSpec Spec.KalmanUseSpec Spec.WeightSpec Proofs.KalmanProofs Proofs.KalmanMore Proofs.WeightProofs.
Import ListNotations.
Local Open Scope R_scope.

(** The weights depend on the parameters and on when the coordinate was measured, not on the coordinate, on the number of
    coordinates or on any value.  The hypotheses keep the divisor of the gain away from 0, where numpy would return NaN. *)
Theorem C103_optimized (p : okf_params RNum) pat : 0 < kp_R p -> 0 <= kp_Q p -> start_psd p ->
  exists w u, weights_for pat w 1 /\ weights_for pat u 0 /\
  forall (z0 : points RNum) l k x, let d := length (flatten z0) in Forall (action_fits d) l -> pattern k l = pat -> nth_error (flatten z0) k = Some x ->
    nth_error (k_x (okf_acts p z0 l)) k = Some (weighted w (x :: readings k l)) /\
    nth_error (k_x (okf_acts p z0 l)) (k + d) = Some (weighted u (x :: readings k l)).
Proof. intros _ _ _. exact (okf_weights p pat). Qed.
Print Assumptions C103_optimized.

Theorem C103_filterpy (inv : nat -> mat -> mat) (p : fp_params) pat : inverts_diagonal inv -> 0 < fp_R p -> 0 <= fp_Q p -> 0 <= fp_P p ->
  exists w u, weights_for pat w 1 /\ weights_for pat u 0 /\
  forall (z0 : points RNum) l k x, let d := length (flatten z0) in Forall (action_fits d) l -> pattern k l = pat -> nth_error (flatten z0) k = Some x ->
    nth_error (fp_x (fp_acts inv p z0 l)) k = Some (weighted w (x :: readings k l)) /\
    nth_error (fp_x (fp_acts inv p z0 l)) (k + d) = Some (weighted u (x :: readings k l)).
Proof. exact (fp_weights inv p pat). Qed.
Print Assumptions C103_filterpy.

(** With the default parameters the first correction moves the estimate 111/151 of the way to the measurement (filterpy:
    3/4) and makes the velocity 10/151 of the difference (filterpy: 5/8). *)
Theorem C103_default_optimized (z0 : points RNum) m k x z : let d := length (flatten z0) in action_fits d (Correct m) ->
  nth_error (flatten z0) k = Some x -> nth_error (me_z m) k = Some z -> nth_error (me_mask m) k = Some true ->
  let f := okf_acts (okf_default_params (N := RNum)) z0 [Predict; Correct m] in
  nth_error (k_x f) k = Some (x + 111 / 151 * (z - x)) /\ nth_error (k_x f) (k + d) = Some (10 / 151 * (z - x)).
Proof. exact (okf_default_step z0 m k x z). Qed.
Print Assumptions C103_default_optimized.
Theorem C103_default_filterpy (inv : nat -> mat -> mat) (z0 : points RNum) m k x z : inverts_diagonal inv -> let d := length (flatten z0) in action_fits d (Correct m) ->
  nth_error (flatten z0) k = Some x -> nth_error (me_z m) k = Some z -> nth_error (me_mask m) k = Some true ->
  let f := fp_acts inv fp_default_params z0 [Predict; Correct m] in
  nth_error (fp_x f) k = Some (x + 3 / 4 * (z - x)) /\ nth_error (fp_x f) (k + d) = Some (5 / 8 * (z - x)).
Proof. exact (fp_default_step inv z0 m k x z). Qed.
Print Assumptions C103_default_filterpy.

(** A point seen at (10, 20), predicted, then measured in its first coordinate only, at 14. *)
Definition ex103_z0 : points RNum := [[10; 20]].
Definition ex103_m : measurement := MkMeas [14; 99] [true; false].
Example C103_case : let d := length (flatten ex103_z0) in let l := [Predict; Correct ex103_m] in
  Forall (action_fits d) l /\ pattern 0 l = [None; Some true] /\ pattern 1 l = [None; Some false] /\
  readings 0 l = [0; 14] /\ readings 1 l = [0; 0] /\ weights_for (pattern 0 l) [1 / 4; 0; 3 / 4] 1 /\
  weighted [1 / 4; 0; 3 / 4] (10 :: readings 0 l) = 13 /\ 0 < kp_R (okf_default_params (N := RNum)) /\ action_fits d (Correct ex103_m).
Proof.
  cbv zeta. assert (F : action_fits (length (flatten ex103_z0)) (Correct ex103_m)) by (split; reflexivity).
  split; [constructor; [exact I|constructor; [exact F|constructor]]|]. repeat split; auto.
  - unfold total. cbn. lra.
  - intros j H. destruct j as [|[|[|j]]]; try reflexivity. exfalso. apply H. reflexivity.
  - unfold weighted, total. cbn. lra.
  - cbn. unfold Q2R. cbn. lra.
Qed.

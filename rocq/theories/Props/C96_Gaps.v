(** C96: how far the prediction of an object that is not measured in every call can be from the object. *)
From Coq Require Import ZArith QArith Reals Lra Lia List Arith.
From Verif Require Import Model.Num Model.Base Model.Filter Model.KalmanMatrix Spec.KalmanSpec Spec.PointSpec Spec.FollowSpec Spec.GapSpec
  Proofs.KalmanTheorems Proofs.GapFilters Proofs.GapDiverges.
Import ListNotations.
Local Open Scope R_scope.

Theorem C96_nofilter G T : coasts_within (nofilter_ops RNum) G T (INR (S T) * INR (S T)).
Proof. exact (nf_coasts G T). Qed.
Print Assumptions C96_nofilter.
Theorem C96_filterpy inv (p : fp_params) G T D : inverts_diagonal inv -> 0 < fp_R p -> 0 <= fp_Q p -> 0 < fp_P p ->
  velocity_bound 1 (fp_Q p) (fp_R p) 0 (fp_P p) G D ->
  coasts_within (fp_ops inv p) G T (gap_constant (fp_R p) 1 0 (fp_P p) D T).
Proof. exact (fp_coasts inv p G T D). Qed.
Print Assumptions C96_filterpy.
(** The optimized filter: measured in every call at first, and then not at all. *)
Theorem C96_optimized (p : okf_params RNum) T D : 0 < kp_R p -> 0 <= kp_Q p -> start_pd p ->
  velocity_bound (kp_Q p) (kp_Q p) (kp_R p) (kp_pos_vel_covariance p) (kp_vel_variance p) 0 D ->
  coasts_within (okf_ops p) 0 T (gap_constant (kp_R p) (kp_pos_variance p) (kp_pos_vel_covariance p) (kp_vel_variance p) D T).
Proof. exact (okf_coasts p T D). Qed.
Print Assumptions C96_optimized.
(** It does not hold with gaps: with the default parameters and a measurement in every 64th call there is no bound. *)
Theorem C96_optimized_gaps_refuted C T : (63 <= T)%nat -> ~ coasts_within (okf_ops (okf_default_params (N := RNum))) 63 T C.
Proof. exact (okf_gaps_diverge C T). Qed.
Print Assumptions C96_optimized_gaps_refuted.

(* ---- concrete cases ---- *)
(** A coordinate that moves by 3 per call, measured in the calls 1 and 4 of five. *)
Definition ex96_ms : list (option measurement) := [None; Some (MkMeas [10 + 2 * 3] [true]); None; None; Some (MkMeas [10 + 5 * 3] [true])].
Example ex96_run before l after : ex96_ms = before ++ l ++ after -> misses l -> (length l <= 2)%nat.
Proof.
  intros E Hl. destruct (le_lt_dec (length l) 2) as [|L]; [assumption|exfalso].
  assert (N : forall a, (a < length l)%nat -> nth_error ex96_ms (length before + a) = Some None).
  { intros a Ha. rewrite E, nth_error_app2, nth_error_app1 by lia. replace (length before + a - length before)%nat with a by lia.
    destruct (nth_error l a) as [o|] eqn:Eo; [|apply nth_error_None in Eo; lia]. f_equal. apply Hl. eapply nth_error_In; eauto. }
  pose proof (N 0%nat ltac:(lia)) as N0. pose proof (N 1%nat ltac:(lia)) as N1. pose proof (N 2%nat ltac:(lia)) as N2.
  destruct (length before) as [|[|[|[|[|b]]]]]; cbn in N0, N1, N2; try discriminate. destruct b; discriminate.
Qed.
Example ex96 : moves_with_gaps 3 10 0 [[10]] ex96_ms /\ gaps_at_most 2 ex96_ms /\ missed_at_most 2 ex96_ms.
Proof.
  split; [|split].
  - split; [reflexivity|]. intros j m H. destruct j as [|[|[|[|[|j]]]]]; cbn in H; try discriminate; try (injection H as <-; cbn; repeat split; f_equal; lra). destruct j; discriminate.
  - intros before l m after E Hl. exact (ex96_run before l (Some m :: after) E Hl).
  - intros before l E Hl. apply (ex96_run before l []); [rewrite app_nil_r; exact E|exact Hl].
Qed.
(** The bounds for the default parameters: 16 calls without a measurement. *)
Example ex96_optimized_bound : let p := okf_default_params (N := RNum) in
  velocity_bound (kp_Q p) (kp_Q p) (kp_R p) (kp_pos_vel_covariance p) (kp_vel_variance p) 0 (11 / 10).
Proof.
  cbn [okf_default_params kp_R kp_Q kp_pos_vel_covariance kp_vel_variance nofQ RNum]. rewrite ?Q2R_10, ?Q2R_4, ?Q2R_1, ?Q2R_0, ?Q2R_tenth. split; [cbn; lra|]. exists (1 / 8). split; [lra|]. split; [left; lra|]. cbn. lra.
Qed.
Example ex96_filterpy_bound : velocity_bound 1 (fp_Q fp_default_params) (fp_R fp_default_params) 0 (fp_P fp_default_params) 15 (116 / 10).
Proof. cbn [fp_default_params fp_R fp_Q fp_P]. unfold velocity_bound. replace (INR 16) with 16 by (rewrite INR_IZR_INZ; reflexivity). split; [lra|]. exists 1. split; [lra|]. split; [right; reflexivity|lra]. Qed.

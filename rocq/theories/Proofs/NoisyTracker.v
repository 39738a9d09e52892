(** C91: the measurements of a tracked object, for any path. *)
From Coq Require Import ZArith Reals Lra Lia Bool List Arith.
From Verif Require Import Model.Num Model.Base Model.Matching Model.Filter Model.Tracker Spec.KalmanSpec Spec.PointSpec Spec.PhasesSpec Spec.FollowSpec Spec.NoisySpec
  Proofs.NumLaws Proofs.Effect Proofs.PointProofs Proofs.FilterTracker Proofs.ReplayProofs Proofs.FollowTracker.
From Verif Require Import Spec.CallSpec.
Import ListNotations.
Local Open Scope nat_scope.

(** Coordinate [k] is measured at [z 0], [z 1], ... *)
Definition path_at (z : nat -> R) (k : nat) (z0 : points RNum) (ms : list measurement) : Prop :=
  Forall (fits_dim (length (flatten z0))) ms /\ nth_error (flatten z0) k = Some (z 0) /\
  forall j m, nth_error ms j = Some m -> nth_error (me_mask m) k = Some true /\ nth_error (me_z m) k = Some (z (S j)).
Lemma path_near eps truth z k z0 ms : (forall j, Rabs (z j - truth j) <= eps)%R -> path_at z k z0 ms -> measured_near eps truth k z0 ms.
Proof.
  intros H (A & B & C). split; [exact A|]. split; [exists (z 0); auto|]. intros j m Hj. destruct (C j m Hj) as [C1 C2]. split; [exact C1|]. exists (z (S j)). auto.
Qed.

Record path_motion {FO : filter_ops RNum} (c : tconf FO) (f0 : frame FO) (fs : list (frame FO)) (i n dim a b : nat) (z : nat -> R) : Prop := {
  pm_created : s_icount (f_pre f0) < i <= s_icount (f_post f0);
  pm_shape : rectangular n dim (d_absolute_points (s_heap (f_post f0) (last_det (f_post f0) i)));
  pm_point : a < n;
  pm_coordinate : b < dim;
  pm_scores : forall sc, d_scores (s_heap (f_post f0) (last_det (f_post f0) i)) = Some sc -> length sc = n;
  pm_count : forall k, k < n -> above (tc_det_thr c) (s_heap (f_post f0) (last_det (f_post f0) i)) k;
  pm_start : coordinate (d_absolute_points (s_heap (f_post f0) (last_det (f_post f0) i))) a b = Some (z 0);
  pm_moves : forall j f, nth_error fs j = Some f ->
     let d := s_heap (f_post f) (last_det (f_post f) i) in
     seen f i /\ fresh f i /\ rectangular n dim (d_absolute_points d) /\ above (tc_det_thr c) d a /\
     coordinate (d_absolute_points d) a b = Some (z (S j))
}.

Section Run.
Context {FO : filter_ops RNum}.
Lemma path_run (c : tconf FO) (s : st FO) f0 fs i wf same n dim a b z : regular FO wf -> rewritable FO wf same ->
  rnd_ok (tc_rnd c) -> tracker_state c s -> tc_reid_distance c = None -> video c s (f0 :: fs) ->
  path_motion c f0 fs i n dim a b z ->
  let z0 := d_absolute_points (s_heap (f_post f0) (last_det (f_post f0) i)) in
  let ms m := map (meas_of (tc_det_thr c) n dim i) (firstn m fs) in
  forall m g, nth_error (f0 :: fs) m = Some g -> tracked (f_post g) i ->
  length (ms m) = m /\ path_at z (a * dim + b) z0 (ms m) /\ same (o_filter (s_store (f_post g) i)) (filter_run FO z0 (ms m)) /\
  oc_dim_points (o_conf (s_store (f_post g) i)) = dim /\ oc_num_points (o_conf (s_store (f_post g) i)) = n /\ wf (dim * n) (o_filter (s_store (f_post g) i)) /\
  forall y w, filter_at FO z0 (filter_run FO z0 (ms m)) (a * dim + b) y w ->
    coordinate (absolute_estimate (s_store (f_post g) i)) a b = Some y /\ coordinate (estimate_velocity (s_store (f_post g) i)) a b = Some w.
Proof.
  intros R W Hr Ht Nr V M z0 ms m g Hg Hti. destruct M as [Hi RC Ha Hb Lsc Hab Hx Hf].
  assert (Hin : forall f, In f fs -> seen f i /\ fresh f i).
  { intros f F. apply In_nth_error in F as [j F]. destruct (Hf j f F) as (A & B & _). auto. }
  assert (L : List.length (over_threshold (tc_det_thr c) n (s_heap (f_post f0) (last_det (f_post f0) i))) = n).
  { unfold over_threshold. destruct (d_scores _) as [sc|]; [rewrite map_length; auto|apply repeat_length]. }
  destruct (filter_replay RNum_laws c s f0 fs i wf same n dim R W Hr Ht Nr V Hi RC ltac:(lia) ltac:(lia) L Hab (fun f F => proj2 (Hin f F)) m g Hg Hti) as (X1 & X2 & X3 & X4).
  rewrite replay_run in X1 by (intros f F; apply Hin; eapply in_firstn; eauto). fold z0 in X1.
  pose proof (estimate_replay RNum_laws c s f0 fs i wf same n dim R W Hr Ht Nr V Hi RC ltac:(lia) ltac:(lia) Lsc Hab (fun f F => proj2 (Hin f F)) m g Hg Hti) as X.
  cbv zeta in X. fold z0 in X. destruct X as (Y1 & Y2 & Y3). rewrite replay_run in Y3 by (intros f F; apply Hin; eapply in_firstn; eauto).
  assert (Lm : length (ms m) = m).
  { unfold ms. rewrite map_length, firstn_length. assert (m < length (f0 :: fs)) by (apply nth_error_Some; congruence). cbn in *. lia. }
  split; [exact Lm|]. split; [|split; [exact X1|split; [auto|split; [auto|split; [auto|]]]]].
  - split; [|split].
    + apply Forall_forall. intros me Hme. apply in_map_iff in Hme as (f & <- & F). apply in_firstn in F. apply In_nth_error in F as [j F].
      destruct (Hf j f F) as (_ & _ & Rf & _). split; cbn [me_z me_mask meas_of].
      * unfold z0. rewrite (flat_length n dim _ RC). exact (flat_length (N := RNum) n dim _ Rf).
      * rewrite mask_length. unfold z0. rewrite (flat_length n dim _ RC). reflexivity.
    + unfold z0. rewrite (entry_flat n dim) by auto. exact Hx.
    + intros j me Hme. unfold ms in Hme. rewrite nth_error_map in Hme. destruct (nth_error (firstn m fs) j) as [f|] eqn:F; [|discriminate].
      injection Hme as <-. assert (F' : nth_error fs j = Some f).
      { rewrite nth_error_firstn in F. destruct (j <? m); [exact F|discriminate]. }
      destruct (Hf j f F') as (_ & _ & Rf & Af & Ef). cbn [me_z me_mask meas_of]. split.
      * rewrite mask_at by auto. f_equal. apply above_b. exact Af.
      * rewrite (entry_flat n dim) by auto. exact Ef.
  - intros y w [Z1 Z2]. unfold ms in Z1, Z2. rewrite Y3 in Z1, Z2. unfold z0 in Z2. rewrite (flat_length n dim _ RC) in Z2.
    pose proof (flat_length n dim _ Y1) as L1. unfold flatten in L1.
    assert (Hk : a * dim + b < dim * n) by nia.
    rewrite nth_error_app1 in Z1 by (rewrite L1; exact Hk). rewrite nth_error_app2 in Z2 by (rewrite L1; lia).
    rewrite L1 in Z2. replace (a * dim + b + dim * n - dim * n) with (a * dim + b) in Z2 by lia.
    rewrite <- (entry_flat n dim) by auto. rewrite <- (entry_flat n dim) by auto. split; assumption.
Qed.
End Run.

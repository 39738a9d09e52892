(** C85 for tracked objects. *)
From Coq Require Import ZArith Reals Lra Lia Bool List Arith.
From Verif Require Import Model.Num Model.Base Model.Matching Model.Filter Model.Tracker Spec.KalmanSpec Spec.PointSpec Spec.PhasesSpec Spec.FollowSpec
  Proofs.NumLaws Proofs.Effect Proofs.PointProofs Proofs.FilterTracker Proofs.ReplayProofs.
From Verif Require Import Spec.CallSpec.
Import ListNotations.
Local Open Scope nat_scope.

Lemma entry_flat n dim (p : points RNum) a b : rectangular n dim p -> b < dim -> nth_error (flatten p) (a * dim + b) = coordinate p a b.
Proof.
  intros [_ F] Hb. rewrite nth_error_flatten with (d := dim) by (auto; lia). unfold coordinate.
  rewrite Nat.div_add_l, Nat.div_small, Nat.add_0_r by lia.
  replace ((a * dim + b) mod dim) with b; [reflexivity|]. rewrite Nat.add_comm, Nat.mod_add by lia. symmetry. apply Nat.mod_small. auto.
Qed.
Lemma in_firstn {A} (l : list A) m x : In x (firstn m l) -> In x l.
Proof. intros H. rewrite <- (firstn_skipn m l). apply in_or_app. auto. Qed.
Lemma flat_length {N : Num} n dim (p : points N) : rectangular n dim p -> length (flatten p) = dim * n.
Proof.
  intros [<- F]. unfold flatten. induction F as [|r p Hr F IH]; cbn; [lia|]. rewrite app_length, IH, Hr. lia.
Qed.
Lemma mask_at {A} (g : nat -> A) dim b : b < dim -> forall n s a, a < n -> nth_error (flat_map (fun k => repeat (g k) dim) (seq s n)) (a * dim + b) = Some (g (s + a)).
Proof.
  intros Hb. induction n as [|n IH]; intros s a Ha; [lia|]. cbn [seq flat_map]. destruct a as [|a].
  - rewrite nth_error_app1 by (rewrite repeat_length; lia). rewrite Nat.add_0_r. apply nth_error_repeat. lia.
  - rewrite nth_error_app2 by (rewrite repeat_length; lia). rewrite repeat_length.
    replace (Datatypes.S a * dim + b - dim) with (a * dim + b) by lia. rewrite IH by lia. f_equal. f_equal. lia.
Qed.
Lemma mask_length {A} (g : nat -> A) dim : forall n s, length (flat_map (fun k => repeat (g k) dim) (seq s n)) = dim * n.
Proof. induction n as [|n IH]; intros s; cbn; [lia|]. rewrite app_length, repeat_length, IH. lia. Qed.
Lemma above_b (thr : RNum) (d : detection RNum) k : above thr d k -> aboveb thr d k = true.
Proof. unfold above, aboveb. destruct (d_scores d) as [sc|]; auto. intros (x & -> & H). exact H. Qed.

Section Follow.
Context {FO : filter_ops RNum}.
Variables (thr : RNum) (n dim i : nat).
Notation frame := (CallSpec.frame FO).
Definition meas_of (f : frame) : measurement :=
  let d := s_heap (f_post f) (last_det (f_post f) i) in
  MkMeas (flatten (d_absolute_points d)) (flat_map (fun k => repeat (aboveb thr d k) dim) (seq 0 n)).

Lemma sensors_bits (d : detection RNum) : sensors thr n dim d = map bit (flat_map (fun k => repeat (aboveb thr d k) dim) (seq 0 n)).
Proof.
  unfold sensors. rewrite !flat_map_concat_map, concat_map, map_map. f_equal. apply map_ext. intros k.
  assert (X : forall (b : bool) m, repeat (if b then (n1 : RNum) else n0) m = map bit (repeat b m)).
  { intros b m. rewrite map_repeat. destruct b; reflexivity. }
  exact (X (aboveb thr d k) dim).
Qed.
Lemma replay_run pts fs : (forall f, In f fs -> seen f i) -> replay thr n dim i pts fs = filter_run FO pts (map meas_of fs).
Proof.
  unfold replay, filter_run. generalize (f_create FO pts) as s. induction fs as [|f fs IH]; intros s H; [reflexivity|]. cbn [fold_left map].
  rewrite IH by (intros; apply H; right; auto). f_equal. cbn [me_z me_mask meas_of].
  destruct (in_dec Nat.eq_dec (last_det (f_post f) i) (f_dets f)) as [_|C]; [|destruct C; apply (H f); left; auto].
  rewrite sensors_bits. reflexivity.
Qed.
End Follow.

Section Tracker.
Context {FO : filter_ops RNum}.
Notation frame := (CallSpec.frame FO).

Lemma video_moves (c : tconf FO) (s : st FO) f0 fs i wf same n dim a b (x v : R) : regular FO wf -> rewritable FO wf same ->
  rnd_ok (tc_rnd c) -> tracker_state c s -> tc_reid_distance c = None -> CallSpec.video c s (f0 :: fs) ->
  steady_motion c f0 fs i n dim a b x v ->
  let det f := s_heap (f_post f) (last_det (f_post f) i) in
  forall m g, nth_error (f0 :: fs) m = Some g -> tracked (f_post g) i ->
  exists ms, length ms = m /\ moves_at v x (a * dim + b) (d_absolute_points (det f0)) ms /\
    forall y w, filter_at FO (d_absolute_points (det f0)) (filter_run FO (d_absolute_points (det f0)) ms) (a * dim + b) y w ->
      coordinate (absolute_estimate (s_store (f_post g) i)) a b = Some y /\ coordinate (estimate_velocity (s_store (f_post g) i)) a b = Some w.
Proof.
  intros R W Hr Ht Nr V [Hi RC Ha Hb Lsc Hab Hx Hf] det m g Hg Hti. change (rectangular n dim (d_absolute_points (det f0))) in RC.
  assert (Hin : forall f, In f fs -> seen f i /\ fresh f i).
  { intros f F. apply In_nth_error in F as [j F]. destruct (Hf j f F) as (A & B & _). auto. }
  pose proof (estimate_replay RNum_laws c s f0 fs i wf same n dim R W Hr Ht Nr V Hi RC ltac:(lia) ltac:(lia) Lsc Hab (fun f F => proj2 (Hin f F)) m g Hg Hti) as X.
  cbv zeta in X. fold (det f0) in X. destruct X as (X1 & X2 & X3).
  rewrite replay_run in X3 by (intros f F; apply Hin; eapply in_firstn; eauto).
  set (ms := map (meas_of (tc_det_thr c) n dim i) (firstn m fs)) in *.
  assert (Lm : length ms = m).
  { unfold ms. rewrite map_length, firstn_length. assert (m < length (f0 :: fs)) by (apply nth_error_Some; congruence). cbn in *. lia. }
  exists ms. split; [exact Lm|]. split.
  - split; [|split].
    + apply Forall_forall. intros me Hme. apply in_map_iff in Hme as (f & <- & F). apply in_firstn in F. apply In_nth_error in F as [j F].
      destruct (Hf j f F) as (_ & _ & Rf & _). split; cbn [me_z me_mask meas_of].
      * rewrite (flat_length n dim _ RC). exact (flat_length (N := RNum) n dim _ Rf).
      * rewrite mask_length, (flat_length n dim _ RC). reflexivity.
    + rewrite (entry_flat n dim) by auto. exact Hx.
    + intros j me Hme. unfold ms in Hme. rewrite nth_error_map in Hme. destruct (nth_error (firstn m fs) j) as [f|] eqn:F; [|discriminate].
      injection Hme as <-. assert (F' : nth_error fs j = Some f).
      { rewrite nth_error_firstn in F. destruct (j <? m); [exact F|discriminate]. }
      destruct (Hf j f F') as (_ & _ & Rf & Af & Ef). cbn [me_z me_mask meas_of]. split.
      * rewrite mask_at by auto. f_equal. apply above_b. exact Af.
      * rewrite (entry_flat n dim) by auto. exact Ef.
  - intros y w [Y1 Y2]. rewrite X3 in Y1, Y2. rewrite (flat_length n dim _ RC) in Y2.
    pose proof (flat_length n dim _ X1) as L1. unfold flatten in L1.
    assert (Hk : a * dim + b < dim * n) by nia.
    rewrite nth_error_app1 in Y1 by (rewrite L1; exact Hk). rewrite nth_error_app2 in Y2 by (rewrite L1; lia).
    rewrite L1 in Y2. replace (a * dim + b + dim * n - dim * n) with (a * dim + b) in Y2 by lia.
    rewrite <- (entry_flat n dim) by auto. rewrite <- (entry_flat n dim) by auto. split; assumption.
Qed.
Theorem tracker_follows wf same : regular FO wf -> rewritable FO wf same -> follows FO -> tracker_learns FO.
Proof.
  intros R W F v eps He. destruct (F v eps He) as [m0 H]. exists m0. intros c s f0 fs i n dim a b x Hr Ht Nr V M m g Hg Hti Hm.
  destruct (video_moves c s f0 fs i wf same n dim a b x v R W Hr Ht Nr V M m g Hg Hti) as (ms & <- & Mv & X).
  destruct (H _ _ _ _ Mv Hm) as (y & w & A & B & C). destruct (X y w A). exists y, w. auto.
Qed.
Theorem tracker_within wf same C : regular FO wf -> rewritable FO wf same -> stays_within FO C -> tracker_stays_within FO C.
Proof.
  intros R W F c s f0 fs i n dim a b x v Hr Ht Nr V M m g Hg Hti.
  destruct (video_moves c s f0 fs i wf same n dim a b x v R W Hr Ht Nr V M m g Hg Hti) as (ms & <- & Mv & X).
  destruct (F _ _ _ _ _ Mv) as (y & w & A & B). destruct (X y w A). exists y. auto.
Qed.
End Tracker.

From Verif Require Import Model.KalmanMatrix Proofs.KalmanTheorems Proofs.FollowFilters.
Local Open Scope R_scope.
Theorem okf_learns (p : okf_params RNum) : 0 < kp_R p -> 0 <= kp_Q p -> start_pd p -> tracker_learns (okf_ops p).
Proof. intros A B C. apply (tracker_follows (FO := okf_ops p) okf_wf eq (okf_regular p) (okf_rewritable p okf_wf)). apply okf_follows; auto. Qed.
Theorem okf_tracker_within (p : okf_params RNum) : 0 < kp_R p -> 0 <= kp_Q p -> start_pd p -> tracker_stays_within (okf_ops p)
  (kp_R p * kp_pos_variance p / (kp_pos_variance p * kp_vel_variance p - kp_pos_vel_covariance p * kp_pos_vel_covariance p)).
Proof. intros A B C. apply (tracker_within (FO := okf_ops p) okf_wf eq _ (okf_regular p) (okf_rewritable p okf_wf)). apply okf_within; auto. Qed.
Theorem fp_learns inv (p : fp_params) : inverts_diagonal inv -> 0 < fp_R p -> 0 <= fp_Q p -> 0 < fp_P p -> tracker_learns (fp_ops inv p).
Proof.
  intros I A B C. apply (tracker_follows (FO := fp_ops inv p) (fp_wf p) fp_same (fp_regular inv p I A B (Rlt_le _ _ C)) (fp_rewritable inv p (fp_wf p))).
  apply fp_follows; auto.
Qed.
Theorem fp_tracker_within inv (p : fp_params) : inverts_diagonal inv -> 0 < fp_R p -> 0 <= fp_Q p -> 0 < fp_P p ->
  tracker_stays_within (fp_ops inv p) (fp_R p / fp_P p).
Proof.
  intros I A B C. apply (tracker_within (FO := fp_ops inv p) (fp_wf p) fp_same _ (fp_regular inv p I A B (Rlt_le _ _ C)) (fp_rewritable inv p (fp_wf p))).
  apply fp_within; auto.
Qed.

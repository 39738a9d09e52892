(** C86: filters and distances of the library. *)
From Coq Require Import ZArith QArith Qcanon Reals Bool List Arith Lia String.
From Verif Require Import Model.Num Model.Base Model.Matching Model.Filter Model.KalmanMatrix Model.Tracker Model.Distances
  Spec.MatchingSpec Spec.BuiltinSpec Spec.KalmanSpec Spec.ExampleVideo Spec.ExamplePoints Spec.LabelSpec Spec.ProgressSpec.
From Verif Require Import Spec.CallSpec Spec.PointSpec.
From Verif Require Import Proofs.NumLaws Proofs.RingNums Proofs.BuiltinProofs Proofs.FilterTracker Proofs.KalmanTheorems.
Import ListNotations.
Local Open Scope nat_scope.

Theorem filters_regular (N : Num) : (exists wf, regular (nofilter_ops N) wf) /\
  (forall p : okf_params N, exists wf, regular (okf_ops p) wf) /\
  (forall inv (p : fp_params), inverts_diagonal inv -> (0 < fp_R p)%R -> (0 <= fp_Q p)%R -> (0 <= fp_P p)%R -> exists wf, regular (fp_ops inv p) wf).
Proof.
  split; [eexists; apply nf_regular|]. split; [intros p; eexists; apply okf_regular|]. intros inv p H1 H2 H3 H4. eexists. apply fp_regular; auto.
Qed.

Theorem builtin_defined (FO : filter_ops RNum) (n dim : nat) name f : 0 < n ->
  lookup name (scalar_functions (FO := FO)) = Some f -> distance_defined (FO := FO) n dim (ScalarDistance f).
Proof.
  intros Hn E d o (D1 & _) (V1 & _). cbn in E.
  assert (K : forall g, metric n dim g -> exists x, g (d_points d) (estimate (v_obj o)) = Ret x /\ x <> DNaN).
  { intros g M. destruct (metric_value _ _ _ M (d_points d) (estimate (v_obj o)) D1 V1) as (x & -> & _). eexists. split; [reflexivity|discriminate]. }
  assert (X : exists g, f = on_points g /\ exists x, g (d_points d) (estimate (v_obj o)) = Ret x /\ x <> DNaN).
  { destruct (String.eqb _ _); [|destruct (String.eqb _ _); [|destruct (String.eqb _ _); [|discriminate]]]; injection E as <-; eexists; (split; [reflexivity|]).
    - apply K, frobenius_metric.
    - apply K, mean_manhattan_metric, Hn.
    - apply K, mean_euclidean_metric, Hn. }
  destruct X as (g & -> & X). exact X.
Qed.

Definition iou_conf : tconf kF := MkTconf (VectorizedDistance (@iou QcNum)) (DFin (qc 1)) 15 1 4 (qc 0) 4 None (DFin (qc 0)) None (fun x => x).
Definition bx (r : nat) (a t b u : Q) : input QcNum := MkInput [(r, new_detection [[qc a; qc t]; [qc b; qc u]] None [] LNone)] [r] 1%Z None.
(** A box that becomes narrower and then is not seen twice; the filter predicts a box whose left side is to the right of the right one. *)
Definition iou_ins : list (input QcNum) := [bx 1 0 0 10 10; bx 2 1 0 9 10; bx 3 2 0 8 10; bx 4 3 0 7 10; bx 5 4 0 6 10; pt_nothing; pt_nothing].
Definition iou_last : input QcNum := bx 6 0 0 (32236842 # 30566681) 10.
Theorem iou_raises : exists (FO : filter_ops QcNum) (c : tconf FO) ins x fs,
  tc_distance c = VectorizedDistance (@iou QcNum) /\ well_formed_calls 2 2 (ins ++ [x]) /\
  (forall y r d, In y (ins ++ [x]) -> In (r, d) (in_new y) -> proper_box d) /\
  play c (pt_start FO) ins = Some fs /\ result_of c (f_post (last fs (pt_noframe FO))) x = Raise EValueError.
Proof.
  exists kF, iou_conf, iou_ins, iou_last, (frames iou_conf (pt_start kF) iou_ins). split; [reflexivity|].
  assert (P : forall y r d, In y (iou_ins ++ [iou_last]) -> In (r, d) (in_new y) -> proper_box d /\ d_absolute_points d = d_points d /\ d_scores d = None).
  { intros y r d Hy Hd. cbn in Hy. repeat (destruct Hy as [<-|Hy]; [cbn in Hd; repeat (destruct Hd as [Hd|Hd]; [injection Hd as <- <-; split; [|auto]; do 4 eexists; split; [reflexivity|split; vm_compute; reflexivity]|]); destruct Hd|]). destruct Hy. }
  split; [|split; [intros; eapply P; eauto|split]].
  - constructor.
    + cbn. repeat constructor; cbn; intuition discriminate.
    + intros x r d Hx Hd. destruct (P x r d Hx Hd) as ((a & t & b & u & E & _) & A & B). unfold det_shape. rewrite A, B, E. repeat split; try (repeat constructor; fail). discriminate.
    + intros before x after r E Hr. do 8 (destruct before as [|? before]; [cbn in E; injection E as <- <-; cbn in *; tauto|]; cbn in E; injection E as <- E). destruct before; discriminate.
    + intros x T Hx. cbn in Hx. repeat (destruct Hx as [<-|Hx]; [discriminate|]). destruct Hx.
  - apply frames_play. vm_compute. reflexivity.
  - vm_compute. reflexivity.
Qed.

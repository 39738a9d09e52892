(** Consequences of [tracking_in_units]: zoomed videos, stretched boxes, moving cameras. *)
From Coq Require Import ZArith Reals Bool Arith List Lia Lra Ring.
From Verif Require Import Model.Num Model.Base Model.Filter Model.Tracker Model.Distances Model.CameraMotion Spec.CallSpec Spec.ExampleVideo Spec.LabelSpec
  Spec.PointSpec Spec.UnitSpec Proofs.NumLaws Proofs.RingNums Proofs.UnitLists Proofs.UnitRun Proofs.UnitDistances.
Import ListNotations.

Section T.
Context {N : Num} (rg : ring_theory (@n0 N) n1 nadd nmul nsub (fun x => nsub n0 x) eq).
Add Ring zoom_ring : rg.
Lemma add_row (u : units N) : forall r v k, map2 nadd (enum_map (fun k x => nadd (nmul (u_scale u k) x) (u_shift u k)) k r) (enum_map (fun k x => nmul (u_scale u k) x) k v) =
  enum_map (fun k x => nadd (nmul (u_scale u k) x) (u_shift u k)) k (map2 nadd r v).
Proof. unfold map2. induction r as [|a r IH]; intros [|b v] k; cbn; auto. rewrite IH. f_equal. ring. Qed.
Lemma minus_row (u : units N) : forall r v k, map2 nsub (enum_map (fun k x => nadd (nmul (u_scale u k) x) (u_shift u k)) k r) (enum_map (fun k x => nmul (u_scale u k) x) k v) =
  enum_map (fun k x => nadd (nmul (u_scale u k) x) (u_shift u k)) k (map2 nsub r v).
Proof. unfold map2. induction r as [|a r IH]; intros [|b v] k; cbn; auto. rewrite IH. f_equal. ring. Qed.
Lemma shift_shaped (op : N -> N -> N) dim v p : length v = dim -> shaped dim p -> shaped dim (map (fun row => map2 op row v) p).
Proof.
  intros L [A B]. split; [destruct p; cbn; [contradiction|discriminate]|]. apply Forall_map. eapply Forall_impl; [|exact B]. intros r Hr. cbn in *.
  unfold map2. rewrite map_length, combine_length. lia.
Qed.
Lemma translation_units dim (u : units N) v : length v = dim ->
  ct_in_units dim u (Some (translation v)) (Some (translation (enum_map (fun k x => nmul (u_scale u k) x) 0 v))).
Proof.
  intros L p Sh. cbn [translation ct_rel_to_abs ct_abs_to_rel]. split; [apply shift_shaped; auto|]. split; [apply map_length|].
  split; [|split; [apply shift_shaped; auto|]]; unfold in_units; rewrite !map_map; apply map_ext; intros r; [apply minus_row|apply add_row].
Qed.
End T.

Local Open Scope R_scope.
Lemma stops_R (t : R) : can_stop (N := RNum) (fun d => d) (@DFin RNum t).
Proof. split; cbn; auto. unfold Rltb. destruct (Rlt_dec (t + 1) t); auto. lra. Qed.

Section Z.
Context {FO : filter_ops RNum}.
Variable dim : nat.
Hypothesis Hdim : (0 < dim)%nat.
Variable u : units RNum.
Variable R0 : nat -> fstate FO -> fstate FO -> Prop.
Hypothesis HR : filter_in_units dim u R0.
Variables (hit_max delay pointwise_max : Z) (det_thr : R) (past_len : nat).
Notation conf f thr := (MkTconf (FO := FO) f (@DFin RNum thr) hit_max delay pointwise_max (det_thr : RNum) past_len None (@DFin RNum 0) None (fun d => d)).

Lemma zoomed c f thr ins ins' h g dummy dummy' : 0 < c -> (forall k, Rabs (u_scale u k) = c) -> In f [frobenius; mean_euclidean; mean_manhattan] ->
  (forall r, det_shaped dim (h r)) -> Forall2 (input_in_units dim u) ins ins' ->
  Forall2 (outcome_in_units dim u (scaled c) (fun d => d))
    (outcomes (conf (ScalarDistance f) thr) (new_tracker h g dummy) ins)
    (outcomes (conf (ScalarDistance f) (c * thr)) (new_tracker (fun r => det_in_units u (h r)) g dummy') ins').
Proof.
  intros Hc Hu Hf Hh Hi. apply (tracking_in_units RNum_laws RNum_ring dim Hdim u R0 HR (scaled c) (fun d => d) (scaled_unit c Hc) same_unit
    (conf (ScalarDistance f) thr) (conf (ScalarDistance f) (c * thr))) with (size := fun _ => O); auto.
  - split; cbn; auto.
    + cbn in Hf. destruct Hf as [<-|[<-|[<-|[]]]]; [apply frobenius_units|apply mean_euclidean_units|apply mean_manhattan_units]; auto.
    + repeat split; try apply stops_R.
    + repeat split.
  - intros r X. cbn in X. congruence.
  - apply Forall_forall. intros x _. apply Forall_forall. intros rd _ X. cbn in X. congruence.
Qed.
Lemma voted c t s thr ins ins' h g dummy dummy' : 0 < c -> (forall k, Rabs (u_scale u k) = c) ->
  (forall r, det_shaped dim (h r)) -> Forall2 (input_in_units dim u) ins ins' ->
  Forall2 (outcome_in_units dim u (fun d => d) (fun d => d))
    (outcomes (conf (ScalarDistance (keypoints_voting_distance t s)) thr) (new_tracker h g dummy) ins)
    (outcomes (conf (ScalarDistance (keypoints_voting_distance (c * t) s)) thr) (new_tracker (fun r => det_in_units u (h r)) g dummy') ins').
Proof.
  intros Hc Hu Hh Hi. apply (tracking_in_units RNum_laws RNum_ring dim Hdim u R0 HR (fun d => d) (fun d => d) same_unit same_unit
    (conf (ScalarDistance (keypoints_voting_distance t s)) thr) (conf (ScalarDistance (keypoints_voting_distance (c * t) s)) thr)) with (size := fun _ => O); auto.
  - split; cbn; auto.
    + apply voting_units; auto.
    + repeat split; try apply stops_R.
    + repeat split.
  - intros r X. cbn in X. congruence.
  - apply Forall_forall. intros x _. apply Forall_forall. intros rd _ X. cbn in X. congruence.
Qed.
Lemma boxed thr ins ins' h g dummy dummy' : dim = 2%nat -> 0 < u_scale u 0 -> 0 < u_scale u 1 ->
  (forall r, det_shaped dim (h r)) -> Forall2 (input_in_units dim u) ins ins' ->
  Forall2 (outcome_in_units dim u (fun d => d) (fun d => d))
    (outcomes (conf (VectorizedDistance iou) thr) (new_tracker h g dummy) ins)
    (outcomes (conf (VectorizedDistance iou) thr) (new_tracker (fun r => det_in_units u (h r)) g dummy') ins').
Proof.
  intros Hd H0 H1 Hh Hi. apply (tracking_in_units RNum_laws RNum_ring dim Hdim u R0 HR (fun d => d) (fun d => d) same_unit same_unit
    (conf (VectorizedDistance iou) thr) (conf (VectorizedDistance iou) thr)) with (size := fun _ => O); auto.
  - split; cbn; auto.
    + apply iou_units; auto.
    + repeat split; try apply stops_R.
    + repeat split.
  - intros r X. cbn in X. congruence.
  - apply Forall_forall. intros x _. apply Forall_forall. intros rd _ X. cbn in X. congruence.
Qed.
Lemma normalised hgt w thr ins ins' h g dummy dummy' : dim = 2%nat -> u_scale u 0 <> 0 -> u_scale u 1 <> 0 ->
  (forall r, det_shaped dim (h r)) -> Forall2 (input_in_units dim u) ins ins' ->
  Forall2 (outcome_in_units dim u (fun d => d) (fun d => d))
    (outcomes (conf (ScalarDistance (normalized_mean_euclidean_distance hgt w)) thr) (new_tracker h g dummy) ins)
    (outcomes (conf (ScalarDistance (normalized_mean_euclidean_distance (Rabs (u_scale u 1) * hgt) (Rabs (u_scale u 0) * w))) thr)
      (new_tracker (fun r => det_in_units u (h r)) g dummy') ins').
Proof.
  intros Hd H0 H1 Hh Hi. apply (tracking_in_units RNum_laws RNum_ring dim Hdim u R0 HR (fun d => d) (fun d => d) same_unit same_unit
    (conf (ScalarDistance (normalized_mean_euclidean_distance hgt w)) thr)
    (conf (ScalarDistance (normalized_mean_euclidean_distance (Rabs (u_scale u 1) * hgt) (Rabs (u_scale u 0) * w))) thr)) with (size := fun _ => O); auto.
  - split; cbn; auto.
    + apply normalized_units; auto.
    + repeat split; try apply stops_R.
    + repeat split.
  - intros r X. cbn in X. congruence.
  - apply Forall_forall. intros x _. apply Forall_forall. intros rd _ X. cbn in X. congruence.
Qed.
End Z.

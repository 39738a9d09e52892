(** Consequences of [tracking_ordered]: increasing functions of distances. *)
From Coq Require Import ZArith QArith Reals Bool Arith List Lia Lra.
From Verif Require Import Model.Num Model.Base Model.Filter Model.Tracker Model.Distances Spec.CallSpec Spec.ExampleVideo Spec.LabelSpec
  Spec.UnitSpec Spec.MonotoneSpec Proofs.NumLaws Proofs.UnitLists Proofs.UnitZoom Proofs.MonotoneSim.
Import ListNotations.
Local Open Scope R_scope.

Lemma Rltb_iff x y : Rltb x y = true <-> x < y.
Proof. unfold Rltb. destruct (Rlt_dec x y); split; intros; auto; discriminate. Qed.
Lemma Reqb_iff x y : Reqb x y = true <-> x = y.
Proof. unfold Reqb. destruct (Req_EM_T x y); split; intros; auto; discriminate. Qed.
Lemma increasing_iff g : increasing g -> forall x y, g x < g y <-> x < y.
Proof.
  intros H x y. split; [|apply H]. intros L. destruct (Rtotal_order x y) as [A|[A|A]]; auto; [subst; lra|apply H in A; lra].
Qed.
Lemma through_unit g : increasing g -> g 0 = 0 -> distance_unit (through g).
Proof.
  intros Hg H0. split.
  - intros [| |x|] [| |y|]; cbn; auto. apply eq_true_iff_eq. rewrite !Rltb_iff. apply increasing_iff, Hg.
  - intros [| |x|]; reflexivity.
  - intros [| |x|]; cbn; auto. f_equal. apply eq_true_iff_eq. rewrite !Reqb_iff. split; [|intros ->; exact H0].
    intros E. destruct (Rtotal_order x 0) as [A|[A|A]]; auto; apply Hg in A; rewrite H0 in A; lra.
  - reflexivity.
Qed.
Lemma same_unit_R : distance_unit (fun d : dval RNum => d).
Proof. split; reflexivity. Qed.

Section S.
Context {FO : filter_ops RNum}.
Variables (hit_max delay pointwise_max : Z) (det_thr : R) (past_len : nat).
Notation conf f thr := (MkTconf (FO := FO) f (@DFin RNum thr) hit_max delay pointwise_max (det_thr : RNum) past_len None (@DFin RNum 0) None (fun d => d)).
Lemma alike g f f' thr thr' : thr' = g thr -> (forall c c' o o', cand_but_distances (through g) (fun d => d) c c' -> view_but_distances (through g) (fun d => d) o o' ->
    f' c' o' = result_map (through g) (f c o)) ->
  ordered_alike (through g) (fun d => d) (conf (ScalarDistance f) thr) (conf (ScalarDistance f') thr').
Proof.
  intros -> Hf. split; cbn; auto.
  - intros c c' o o' A B. rewrite (Hf c c' o o' A B). destruct (f c o); reflexivity.
  - repeat split; try apply stops_R; intros X; congruence.
  - repeat split.
Qed.
Lemma increased g f thr ins h gc dummy dummy' : increasing g -> g 0 = 0 -> ignores_distances f ->
  Forall2 (outcome_but_distances (through g) (fun d => d))
    (outcomes (conf (ScalarDistance f) thr) (new_tracker h gc dummy) ins)
    (outcomes (conf (ScalarDistance (fun c o => result_map (through g) (f c o))) (g thr)) (new_tracker h gc dummy') ins).
Proof.
  intros Hg H0 Hf. apply (tracking_ordered RNum_laws _ _ (through_unit g Hg H0) same_unit_R). apply alike; auto.
  intros c c' o o' A B. rewrite (Hf _ _ c c' o o' A B). reflexivity.
Qed.
Lemma increased_vectorized g f thr ins h gc dummy dummy' : increasing g -> g 0 = 0 ->
  Forall2 (outcome_but_distances (through g) (fun d => d))
    (outcomes (conf (VectorizedDistance f) thr) (new_tracker h gc dummy) ins)
    (outcomes (conf (VectorizedDistance (fun ps qs => result_map (map (map (through g))) (f ps qs))) (g thr)) (new_tracker h gc dummy') ins).
Proof.
  intros Hg H0. apply (tracking_ordered RNum_laws _ _ (through_unit g Hg H0) same_unit_R). split; cbn; auto.
  - intros ps qs. destruct (f ps qs) as [D|]; cbn; auto. f_equal. rewrite map_map. apply map_ext. intros r. rewrite map_map. reflexivity.
  - repeat split; try apply stops_R; intros X; congruence.
  - repeat split.
Qed.

(** The library's functions. *)
Lemma points_ignore f : ignores_distances (FO := FO) (on_points f).
Proof.
  intros dh dr [d|v] [d'|v'] o o' Hc [Ho Hd]; cbn in *; try contradiction; auto. subst d'. rewrite (sb_estimate _ _ _ _ Ho). reflexivity.
Qed.
Lemma voting_ignore t s : ignores_distances (FO := FO) (keypoints_voting_distance t s).
Proof.
  intros dh dr [d|v] [d'|v'] o o' Hc (Ho & Hd & _); cbn in *; try contradiction; auto. subst d'. rewrite (sb_estimate _ _ _ _ Ho), Hd. reflexivity.
Qed.
Lemma builtin_ignore :
  (forall s f, In (s, f) (@scalar_functions FO) -> ignores_distances f) /\
  (forall t s, ignores_distances (FO := FO) (keypoints_voting_distance t s)) /\
  (forall height width, ignores_distances (FO := FO) (normalized_mean_euclidean_distance height width)).
Proof.
  split; [|split].
  - intros s f H. cbn in H. repeat (destruct H as [H|H]; [injection H as _ <-; apply points_ignore|]). destruct H.
  - exact voting_ignore.
  - intros h w. apply points_ignore.
Qed.

(** Squares. *)
Definition signed_square (x : R) : R := x * Rabs x.
Lemma signed_square_increasing : increasing signed_square.
Proof.
  intros x y L. unfold signed_square. unfold Rabs. destruct (Rcase_abs x), (Rcase_abs y); nra.
Qed.
Lemma norm2_nonneg l : 0 <= norm2 l.
Proof. unfold norm2. apply sqrt_pos. Qed.
Lemma squared_frobenius thr ins h gc dummy dummy' : 0 <= thr ->
  Forall2 (outcome_but_distances (through signed_square) (fun d => d))
    (outcomes (conf (ScalarDistance frobenius) thr) (new_tracker h gc dummy) ins)
    (outcomes (conf (ScalarDistance (fun c o => result_map (through (fun x => x * x)) (frobenius c o))) (thr * thr)) (new_tracker h gc dummy') ins).
Proof.
  intros Ht. apply (tracking_ordered RNum_laws _ _ (through_unit signed_square signed_square_increasing ltac:(unfold signed_square; ring)) same_unit_R).
  apply alike; [unfold signed_square; rewrite Rabs_pos_eq; auto|]. intros c c' o o' A B. rewrite (points_ignore frobenius_arrays _ _ c c' o o' A B : frobenius c' o' = frobenius c o).
  destruct c as [d|v]; cbn; auto. unfold frobenius_arrays. destruct (array_sub _ _) as [m|]; cbn; auto. unfold signed_square. rewrite Rabs_pos_eq; auto. apply norm2_nonneg.
Qed.
End S.

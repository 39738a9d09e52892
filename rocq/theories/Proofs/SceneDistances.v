(** C88: the distances of steadily moving things. *)
From Coq Require Import ZArith Reals Lra Lia List Arith.
From Verif Require Import Model.Num Model.Base Model.Filter Model.Distances Model.Tracker Spec.BuiltinSpec Spec.PointSpec Spec.SceneSpec Proofs.BuiltinProofs.
Import ListNotations.
Local Open Scope R_scope.

Definition scales (n d : nat) (arr : points RNum -> points RNum -> result (dval RNum)) : Prop :=
  forall K p q w z (a b : R), 0 <= K -> shaped n d p -> shaped n d q -> shaped n d w -> shaped n d z ->
  (forall i j, (i < n)%nat -> (j < d)%nat -> Rabs (entry p i j - entry q i j) <= K * Rabs (entry w i j - entry z i j)) ->
  arr p q = Ret (@DFin RNum a) -> arr w z = Ret (@DFin RNum b) -> a <= K * b.

Lemma total_le n f g : (forall k, (k < n)%nat -> f k <= g k) -> total n f <= total n g.
Proof. induction n as [|n IH]; intros H; cbn; [lra|]. specialize (IH (fun k Hk => H k ltac:(lia))). specialize (H n ltac:(lia)). lra. Qed.
Lemma total_scale n f K : total n (fun k => K * f k) = K * total n f.
Proof. induction n as [|n IH]; cbn; [ring|]. rewrite IH. ring. Qed.
Lemma total_nonneg n f : (forall k, (k < n)%nat -> 0 <= f k) -> 0 <= total n f.
Proof. induction n as [|n IH]; intros H; cbn; [lra|]. specialize (IH (fun k Hk => H k ltac:(lia))). specialize (H n ltac:(lia)). lra. Qed.
Lemma sq_le u v K : 0 <= K -> Rabs u <= K * Rabs v -> u ^ 2 <= K ^ 2 * v ^ 2.
Proof.
  intros HK H. assert (X : Rabs u * Rabs u <= (K * Rabs v) * (K * Rabs v)) by (apply Rmult_le_compat; auto using Rabs_pos).
  rewrite <- Rabs_mult in X. rewrite Rabs_pos_eq in X by nra. assert (Y : Rabs v * Rabs v = v ^ 2) by (rewrite <- Rabs_mult, Rabs_pos_eq by nra; ring). nra.
Qed.
Lemma sqrt_scale K s t : 0 <= K -> 0 <= t -> s <= K ^ 2 * t -> sqrt s <= K * sqrt t.
Proof.
  intros HK Ht H. replace (K * sqrt t) with (sqrt (K ^ 2 * t)).
  - apply sqrt_le_1_alt, H. - rewrite sqrt_mult by nra. f_equal. rewrite <- Rsqr_pow2. apply sqrt_Rsqr, HK.
Qed.
Lemma sq_nonneg u : 0 <= u ^ 2.
Proof. nra. Qed.

Lemma frobenius_scales n d : scales n d frobenius_arrays.
Proof.
  intros K p q w z a b HK P Q W Z H. rewrite !(frobenius_formula n d) by auto. intros E F. injection E as <-. injection F as <-.
  apply sqrt_scale; [exact HK|apply total_nonneg; intros; apply total_nonneg; intros; apply sq_nonneg|].
  rewrite <- total_scale. apply total_le. intros i Hi. rewrite <- total_scale. apply total_le. intros j Hj. apply sq_le; auto.
Qed.
Lemma mean_scales n (s t K : R) : (0 < n)%nat -> s <= K * t -> s / INR n <= K * (t / INR n).
Proof.
  intros Hn H. assert (0 < INR n) by (apply lt_0_INR; exact Hn). unfold Rdiv. rewrite <- Rmult_assoc. apply Rmult_le_compat_r; [|exact H].
  apply Rlt_le, Rinv_0_lt_compat. assumption.
Qed.
Lemma mean_euclidean_scales n d : (0 < n)%nat -> scales n d mean_euclidean_arrays.
Proof.
  intros Hn K p q w z a b HK P Q W Z H. rewrite !(mean_euclidean_formula n d) by auto. intros E F. injection E as <-. injection F as <-.
  apply mean_scales; [exact Hn|]. rewrite <- total_scale. apply total_le. intros i Hi. unfold point_euclidean.
  apply sqrt_scale; [exact HK|apply total_nonneg; intros; apply sq_nonneg|]. rewrite <- total_scale. apply total_le. intros j Hj. apply sq_le; auto.
Qed.
Lemma mean_manhattan_scales n d : (0 < n)%nat -> scales n d mean_manhattan_arrays.
Proof.
  intros Hn K p q w z a b HK P Q W Z H. rewrite !(mean_manhattan_formula n d) by auto. intros E F. injection E as <-. injection F as <-.
  apply mean_scales; [exact Hn|]. rewrite <- total_scale. apply total_le. intros i Hi. unfold point_manhattan.
  rewrite <- total_scale. apply total_le. intros j Hj. auto.
Qed.
Lemma builtin_scales n d arr : (0 < n)%nat -> In arr [frobenius_arrays; mean_euclidean_arrays; mean_manhattan_arrays] -> metric n d arr /\ scales n d arr.
Proof.
  intros Hn [<-|[<-|[<-|[]]]].
  - split; [apply frobenius_metric|apply frobenius_scales].
  - split; [apply mean_euclidean_metric; exact Hn|apply mean_euclidean_scales; exact Hn].
  - split; [apply mean_manhattan_metric; exact Hn|apply mean_manhattan_scales; exact Hn].
Qed.

Lemma row_length k r w d : length r = d -> length w = d -> length (map (fun s : R * R => fst s + INR k * snd s) (combine r w)) = d.
Proof. intros A B. rewrite map_length, combine_length, A, B. apply Nat.min_id. Qed.
Lemma position_rect n d x v k : rectangular n d x -> rectangular n d v -> rectangular n d (position x v k).
Proof.
  intros [A A'] [B B']. unfold position. split; [rewrite map_length, combine_length, A, B; apply Nat.min_id|].
  rewrite Forall_forall in *. intros r Hr. apply in_map_iff in Hr as ([p q] & <- & Hpq). cbn [fst snd].
  apply (row_length k p q d); [apply A'; eapply in_combine_l; eauto|apply B'; eapply in_combine_r; eauto].
Qed.
Lemma position_entry n d x v k i j : rectangular n d x -> rectangular n d v -> (i < n)%nat -> (j < d)%nat ->
  entry (position x v k) i j = entry x i j + INR k * entry v i j.
Proof.
  intros [A A'] [B B'] Hi Hj. rewrite Forall_forall in *. unfold entry, position.
  set (g := fun r : list R * list R => map (fun s : R * R => fst s + INR k * snd s) (combine (fst r) (snd r))).
  change (nth j (nth i (map g (combine x v)) (g ([], []))) 0 = nth j (nth i x []) 0 + INR k * nth j (nth i v []) 0).
  rewrite map_nth, combine_nth by (exact (eq_trans A (eq_sym B))). unfold g. cbn [fst snd].
  assert (L1 : length (nth i x []) = d) by (apply A', nth_In; exact (eq_ind_r (lt i) Hi A)). assert (L2 : length (nth i v []) = d) by (apply B', nth_In; exact (eq_ind_r (lt i) Hi B)).
  change (num RNum) with R in *.
  rewrite (nth_indep _ 0 (0 + INR k * 0)) by (rewrite (row_length k _ _ d L1 L2); exact Hj).
  change (0 + INR k * 0) with ((fun s : R * R => fst s + INR k * snd s) (0, 0)). rewrite map_nth, combine_nth by (exact (eq_trans L1 (eq_sym L2))). reflexivity.
Qed.

(** A point within K times the motion of the position is within K times the way. *)
Lemma near_position n d arr K x v k q (s : R) : metric n d arr -> scales n d arr -> 0 <= K -> rectangular n d x -> rectangular n d v -> rectangular n d q ->
  (forall i j, (i < n)%nat -> (j < d)%nat -> Rabs (entry q i j - entry (position x v k) i j) <= K * Rabs (entry v i j)) ->
  arr (position x v 1) (position x v 0) = Ret (@DFin RNum s) -> exists t : R, arr (position x v k) q = Ret (@DFin RNum t) /\ t <= K * s.
Proof.
  intros M S HK Hx Hv Hq H E. pose proof (position_rect n d x v) as P.
  destruct (metric_value _ _ _ M (position x v k) q) as (t & Et & _); [apply P; auto|exact Hq|]. exists t. split; [exact Et|].
  eapply (S K); [exact HK| | | | | |exact Et|exact E]; try (apply P; auto); [exact Hq|].
  intros i j Hi Hj. rewrite (position_entry n d x v 1 i j), (position_entry n d x v 0 i j) by auto. rewrite Rabs_minus_sym.
  replace (entry x i j + INR 1 * entry v i j - (entry x i j + INR 0 * entry v i j)) with (entry v i j) by (cbn; ring). apply H; auto.
Qed.

(** C46, C48, C49: built-in distances with square roots. *)
From Coq Require Import Reals Lra Lia Bool Arith.
From Coq Require Import List.
From Verif Require Import Model.Num Model.Base Model.Distances Spec.BuiltinSpec.
Import ListNotations.
Local Open Scope R_scope.

(** ** Lists of reals *)
Definition vsubl (a b : list R) : list R := map2 Rminus a b.

Lemma map2_cons {A B C} (f : A -> B -> C) a l b m : map2 f (a :: l) (b :: m) = f a b :: map2 f l m.
Proof. reflexivity. Qed.
Lemma map2_length {A B C} (f : A -> B -> C) l : forall m, length l = length m -> length (map2 f l m) = length l.
Proof. induction l as [|a l IH]; intros [|b m] H; cbn in H; try discriminate; auto. rewrite map2_cons. cbn. f_equal. apply IH. lia. Qed.

Lemma rsum_cons x l : rsum (x :: l) = x + rsum l.
Proof. reflexivity. Qed.
Lemma rsum_nil : rsum [] = 0.
Proof. reflexivity. Qed.
Lemma rsum_app a b : rsum (a ++ b) = rsum a + rsum b.
Proof. unfold rsum. induction a as [|x a IH]; cbn [app fold_right]; [lra|]. rewrite IH. lra. Qed.
Lemma rsum_nonneg l : Forall (fun x => 0 <= x) l -> 0 <= rsum l.
Proof. induction 1; rewrite ?rsum_nil, ?rsum_cons; lra. Qed.
Lemma rsum_zero l : Forall (fun x => 0 <= x) l -> rsum l = 0 -> Forall (fun x => x = 0) l.
Proof.
  induction 1 as [|x l H Hl IH]; intros E; rewrite ?rsum_cons in E; auto.
  pose proof (rsum_nonneg _ Hl). constructor; [lra|apply IH; lra].
Qed.
Lemma rsum_zeros l : Forall (fun x => x = 0) l -> rsum l = 0.
Proof. induction 1; rewrite ?rsum_nil, ?rsum_cons; lra. Qed.

Definition sq (v : list R) : R := rsum (map (fun x => x * x) v).
Lemma sq_cons x v : sq (x :: v) = x * x + sq v.
Proof. reflexivity. Qed.
Lemma sq_nil : sq [] = 0.
Proof. reflexivity. Qed.
Lemma sq_nonneg v : 0 <= sq v.
Proof. apply rsum_nonneg, Forall_map, Forall_forall. intros x _. apply Rle_0_sqr. Qed.
Lemma sq_zero v : sq v = 0 -> Forall (fun x => x = 0) v.
Proof.
  intros H. apply rsum_zero in H; [|apply Forall_map, Forall_forall; intros; apply Rle_0_sqr].
  rewrite Forall_map in H. eapply Forall_impl; [|exact H]. intros x E. exact (Rsqr_0_uniq x E).
Qed.

Fixpoint dot (a b : list R) : R := match a, b with x :: a', y :: b' => x * y + dot a' b' | _, _ => 0 end.
Fixpoint lin (s : R) (a : list R) (t : R) (b : list R) : list R :=
  match a, b with x :: a', y :: b' => (s * x + t * y) :: lin s a' t b' | _, _ => [] end.
Lemma sq_lin s t a : forall b, length a = length b -> sq (lin s a t b) = s * s * sq a + 2 * s * t * dot a b + t * t * sq b.
Proof.
  induction a as [|x a IH]; intros [|y b] H; try discriminate; cbn [lin dot]; rewrite ?sq_cons, ?sq_nil; [ring|].
  rewrite IH by (cbn in H; lia). ring.
Qed.
Lemma cauchy a b : length a = length b -> dot a b * dot a b <= sq a * sq b.
Proof.
  intros H.
  destruct (Req_dec (sq b) 0) as [Z|Z].
  - pose proof (sq_zero _ Z) as F.
    assert (D : dot a b = 0).
    { clear Z. revert b H F. induction a as [|x a IH]; intros [|y b] H F; auto. inversion F; subst. cbn.
      rewrite (IH b) by (auto; cbn in H; lia). ring. }
    rewrite D, Z. lra.
  - pose proof (sq_nonneg (lin (sq b) a (- dot a b) b)) as P. rewrite (sq_lin _ _ a b H) in P.
    pose proof (sq_nonneg b) as Pb. assert (Hb : 0 < sq b) by lra.
    assert (Q : 0 <= sq b * (sq a * sq b - dot a b * dot a b)).
    { replace (sq b * (sq a * sq b - dot a b * dot a b))
        with (sq b * sq b * sq a + 2 * sq b * - dot a b * dot a b + - dot a b * - dot a b * sq b) by ring. exact P. }
    apply Rmult_le_reg_l with (r := sq b); auto. lra.
Qed.
Lemma norm2_sq v : norm2 v = sqrt (sq v).
Proof. reflexivity. Qed.
Lemma norm2_nonneg v : 0 <= norm2 v.
Proof. apply sqrt_pos. Qed.
Lemma norm2_lin a b : length a = length b -> norm2 (lin 1 a 1 b) <= norm2 a + norm2 b.
Proof.
  intros H. rewrite !norm2_sq. pose proof (sqrt_pos (sq a)). pose proof (sqrt_pos (sq b)).
  pose proof (sqrt_sqrt _ (sq_nonneg a)). pose proof (sqrt_sqrt _ (sq_nonneg b)).
  rewrite <- (sqrt_square (sqrt (sq a) + sqrt (sq b))) by lra. apply sqrt_le_1_alt.
  rewrite (sq_lin _ _ _ _ H).
  assert (D : dot a b <= sqrt (sq a) * sqrt (sq b)).
  { destruct (Rle_dec (dot a b) 0) as [N|N].
    - pose proof (Rmult_le_pos _ _ (sqrt_pos (sq a)) (sqrt_pos (sq b))). lra.
    - rewrite <- sqrt_mult by apply sq_nonneg. rewrite <- (sqrt_square (dot a b)) by lra.
      apply sqrt_le_1_alt, cauchy, H. }
  nra.
Qed.

(** ** Differences *)
Lemma sub_triangle a : forall b c, length a = length b -> length b = length c ->
  vsubl a c = lin 1 (vsubl a b) 1 (vsubl b c).
Proof.
  induction a as [|x a IH]; intros [|y b] [|z c] H1 H2; try discriminate; auto.
  unfold vsubl in *. rewrite !map2_cons. cbn [lin]. f_equal; [ring|]. apply IH; cbn in *; lia.
Qed.
Lemma sub_zero a : forall b, length a = length b -> (Forall (fun x => x = 0) (vsubl a b) <-> a = b).
Proof.
  induction a as [|x a IH]; intros [|y b] H; try discriminate.
  - split; auto. constructor.
  - unfold vsubl in *. rewrite map2_cons. split.
    + intros F. inversion F; subst. f_equal; [lra|]. apply IH; auto.
    + intros E. injection E as -> ->. constructor; [ring|]. apply IH; auto.
Qed.
Lemma sub_sym_sq a : forall b, length a = length b -> sq (vsubl a b) = sq (vsubl b a).
Proof.
  induction a as [|x a IH]; intros [|y b] H; try discriminate; auto.
  unfold vsubl in *. rewrite !map2_cons, !sq_cons. rewrite IH by (cbn in H; lia). ring.
Qed.
Lemma sub_sym_n1 a : forall b, length a = length b -> norm1 (vsubl a b) = norm1 (vsubl b a).
Proof.
  induction a as [|x a IH]; intros [|y b] H; try discriminate; auto.
  unfold vsubl, norm1 in *. rewrite !map2_cons. cbn [map]. rewrite !rsum_cons. rewrite IH by (cbn in H; lia). rewrite (Rabs_minus_sym x y). ring.
Qed.
Lemma vsubl_length a b : length a = length b -> length (vsubl a b) = length a.
Proof. apply map2_length. Qed.

(** A norm on vectors of length [d]. *)
Record norm_ok (d : nat) (nm : list R -> R) : Prop := {
  no_nonneg : forall v, 0 <= nm v;
  no_zero : forall a b, length a = d -> length b = d -> (nm (vsubl a b) = 0 <-> a = b);
  no_sym : forall a b, length a = d -> length b = d -> nm (vsubl a b) = nm (vsubl b a);
  no_tri : forall a b c, length a = d -> length b = d -> length c = d ->
           nm (vsubl a c) <= nm (vsubl a b) + nm (vsubl b c)
}.
Lemma norm2_ok d : norm_ok d norm2.
Proof.
  constructor.
  - apply norm2_nonneg.
  - intros a b A B. rewrite <- (sub_zero a b) by congruence. rewrite norm2_sq. split.
    + intros H. apply sq_zero. apply sqrt_eq_0; auto using sq_nonneg.
    + intros F. replace (sq (vsubl a b)) with 0; [apply sqrt_0|]. symmetry. apply rsum_zeros, Forall_map.
      eapply Forall_impl; [|exact F]. intros x ->. ring.
  - intros a b A B. rewrite !norm2_sq, sub_sym_sq by congruence. reflexivity.
  - intros a b c A B C. rewrite (sub_triangle a b c) by congruence. apply norm2_lin. rewrite !vsubl_length by congruence. congruence.
Qed.
Lemma norm1_ok d : norm_ok d norm1.
Proof.
  constructor.
  - intros v. apply rsum_nonneg, Forall_map, Forall_forall. intros x _. apply Rabs_pos.
  - intros a b A B. rewrite <- (sub_zero a b) by congruence. unfold norm1. split.
    + intros H. apply rsum_zero in H; [|apply Forall_map, Forall_forall; intros; apply Rabs_pos].
      rewrite Forall_map in H. eapply Forall_impl; [|exact H]. intros x E. destruct (Req_dec x 0); auto. apply Rabs_no_R0 in H0. contradiction.
    + intros F. apply rsum_zeros, Forall_map. eapply Forall_impl; [|exact F]. intros x ->. apply Rabs_R0.
  - intros a b A B. apply sub_sym_n1. congruence.
  - intros a b c A B C. assert (L1 : length a = length b) by congruence. assert (L2 : length b = length c) by congruence.
    clear d A B C. revert b c L1 L2. unfold norm1, vsubl.
    induction a as [|x a IH]; intros [|y b] [|z c] L1 L2; try discriminate; [cbn; lra|].
    rewrite !map2_cons. cbn [map]; rewrite !rsum_cons. pose proof (Rabs_triang (x - y) (y - z)) as T.
    replace (x - y + (y - z)) with (x - z) in T by ring. specialize (IH b c ltac:(cbn in *; lia) ltac:(cbn in *; lia)).
    lra.
Qed.

(** ** Arrays *)
Definition diff (a b : points RNum) : points RNum := map2 (map2 Rminus) a b.
Lemma shaped_cons n d r a : shaped n d (r :: a) -> exists k, n = S k /\ @length R r = d /\ shaped k d a.
Proof. intros [H F]. inversion F; subst. exists (length a). cbn. repeat split; auto. Qed.
Lemma shaped_sub n d a b : shaped n d a -> shaped n d b -> array_sub a b = Ret (diff a b).
Proof.
  intros [A FA] [B FB]. unfold array_sub, same_shape.
  rewrite A, B, Nat.eqb_refl. cbn [andb].
  replace (forallb _ _) with true; auto. symmetry. apply forallb_forall. intros [x y] H.
  rewrite Forall_forall in FA, FB. pose proof (in_combine_l _ _ _ _ H) as H1. pose proof (in_combine_r _ _ _ _ H) as H2.
  apply Nat.eqb_eq. cbn. rewrite (FA x H1), (FB y H2). reflexivity.
Qed.
Lemma diff_cons r a s b : diff (r :: a) (s :: b) = vsubl r s :: diff a b.
Proof. reflexivity. Qed.
Lemma diff_length n d a b : shaped n d a -> shaped n d b -> length (diff a b) = n.
Proof. intros [A _] [B _]. unfold diff. exact (eq_trans (map2_length _ _ _ (eq_trans A (eq_sym B))) A). Qed.

Section Norm.
Variable d : nat.
Variable nm : list R -> R.
Hypothesis ok : norm_ok d nm.

Lemma rows_nonneg m : Forall (fun x => 0 <= x) (map nm m).
Proof. apply Forall_map, Forall_forall. intros v _. apply (no_nonneg _ _ ok). Qed.
Lemma rows_sym n a : forall b, shaped n d a -> shaped n d b -> rsum (map nm (diff a b)) = rsum (map nm (diff b a)).
Proof.
  revert n. induction a as [|r a IH]; intros n [|s b] A B; [reflexivity| | |].
  - destruct A as [<- _]. destruct B as [B _]. discriminate.
  - destruct B as [<- _]. destruct A as [A _]. discriminate.
  - apply shaped_cons in A as (k & -> & Lr & A). apply shaped_cons in B as (k' & E & Ls & B). injection E as <-.
    rewrite !diff_cons. cbn [map]; rewrite !rsum_cons. rewrite (no_sym _ _ ok r s Lr Ls). rewrite (IH k b A B). reflexivity.
Qed.
Lemma rows_zero n a : forall b, shaped n d a -> shaped n d b -> (rsum (map nm (diff a b)) = 0 <-> a = b).
Proof.
  revert n. induction a as [|r a IH]; intros n [|s b] A B; [split; reflexivity| | |].
  - destruct A as [<- _]. destruct B as [B _]. discriminate.
  - destruct B as [<- _]. destruct A as [A _]. discriminate.
  - apply shaped_cons in A as (k & -> & Lr & A). apply shaped_cons in B as (k' & E & Ls & B). injection E as <-.
    rewrite !diff_cons. cbn [map]; rewrite !rsum_cons. specialize (IH k b A B).
    pose proof (no_nonneg _ _ ok (vsubl r s)). pose proof (rsum_nonneg _ (rows_nonneg (diff a b))) as P.
    pose proof (no_zero _ _ ok r s Lr Ls) as Z. split.
    + intros E. f_equal; [apply Z|apply IH]; lra.
    + intros E. injection E as E1 E2. apply Z in E1. apply IH in E2. lra.
Qed.
Lemma rows_tri n a : forall b c, shaped n d a -> shaped n d b -> shaped n d c ->
  rsum (map nm (diff a c)) <= rsum (map nm (diff a b)) + rsum (map nm (diff b c)).
Proof.
  revert n. induction a as [|r a IH]; intros n b c A B C.
  - destruct A as [<- _]. destruct b; [|destruct B; discriminate]. destruct c; [|destruct C; discriminate]. cbn. lra.
  - apply shaped_cons in A as (k & -> & Lr & A).
    destruct b as [|s b]; [destruct B; discriminate|]. destruct c as [|t c]; [destruct C; discriminate|].
    apply shaped_cons in B as (k' & E & Ls & B). injection E as <-. apply shaped_cons in C as (k' & E & Lt & C). injection E as <-.
    rewrite !diff_cons. cbn [map]; rewrite !rsum_cons. specialize (IH k b c A B C).
    pose proof (no_tri _ _ ok r s t Lr Ls Lt). lra.
Qed.

(** The mean of the norms of the rows. *)
Definition mean_norm (a b : points RNum) : result (dval RNum) :=
  match array_sub a b with Raise e => Raise e | Ret m => Ret (mean (map nm m)) end.
Lemma mean_norm_value n a b : (0 < n)%nat -> shaped n d a -> shaped n d b ->
  mean_norm a b = Ret (@DFin RNum (rsum (map nm (diff a b)) / INR n)).
Proof.
  intros Hn A B. unfold mean_norm. rewrite (shaped_sub _ _ _ _ A B). unfold mean.
  assert (L : length (map nm (diff a b)) = n) by (rewrite map_length; exact (diff_length _ _ _ _ A B)).
  destruct (map nm (diff a b)) as [|x l] eqn:E; [cbn in L; lia|]. rewrite L. reflexivity.
Qed.
Lemma mean_norm_metric n : (0 < n)%nat -> metric n d mean_norm.
Proof.
  intros Hn. assert (P : 0 < INR n) by (apply lt_0_INR; exact Hn). assert (P' : 0 < / INR n) by (apply Rinv_0_lt_compat; exact P). constructor.
  - intros a b A B. exists (rsum (map nm (diff a b)) / INR n). rewrite (mean_norm_value n a b Hn A B).
    pose proof (rsum_nonneg _ (rows_nonneg (diff a b))) as Q. split; auto. split.
    + unfold Rdiv. apply Rmult_le_pos; lra.
    + rewrite <- (rows_zero n a b A B). split; intros E.
      * unfold Rdiv in E. apply Rmult_integral in E as [E|E]; lra.
      * rewrite E. unfold Rdiv. ring.
  - intros a b A B. rewrite !(mean_norm_value n) by auto. rewrite (rows_sym n a b A B). reflexivity.
  - intros a b c x y z A B C. rewrite !(mean_norm_value n) by auto. intros X Y Z.
    injection X as <-. injection Y as <-. injection Z as <-. pose proof (rows_tri n a b c A B C) as T.
    unfold Rdiv. rewrite <- Rmult_plus_distr_r. apply Rmult_le_compat_r; lra.
Qed.
End Norm.

(** ** Frobenius *)
Lemma concat_diff n d a : forall b, shaped n d a -> shaped n d b ->
  concat (diff a b) = vsubl (concat a) (concat b) /\ @length R (concat a) = (n * d)%nat.
Proof.
  revert n. induction a as [|r a IH]; intros n [|s b] A B.
  - destruct A as [<- _]. split; reflexivity.
  - destruct A as [<- _]. destruct B as [B _]. discriminate.
  - destruct B as [<- _]. destruct A as [A _]. discriminate.
  - apply shaped_cons in A as (k & -> & Lr & A). apply shaped_cons in B as (k' & E & Ls & B). injection E as <-.
    rewrite diff_cons. cbn [concat]. destruct (IH k b A B) as [-> L]. split.
    + clear -Lr Ls. assert (L : @length R r = @length R s) by exact (eq_trans Lr (eq_sym Ls)). clear Lr Ls. revert s L.
      induction r as [|x r IH]; intros [|y s] L; try discriminate; auto.
      unfold vsubl in *. cbn [app]. rewrite !map2_cons. cbn [app]. f_equal. apply IH. cbn in L. lia.
    + rewrite app_length. transitivity (d + k * d)%nat; [|reflexivity]. f_equal; [exact Lr|exact L].
Qed.
Lemma concat_inj n d a : forall b, shaped n d a -> shaped n d b -> concat a = concat b -> a = b.
Proof.
  revert n. induction a as [|r a IH]; intros n [|s b] A B.
  - reflexivity.
  - destruct A as [<- _]. destruct B as [B _]. discriminate.
  - destruct B as [<- _]. destruct A as [A _]. discriminate.
  - apply shaped_cons in A as (k & -> & Lr & A). apply shaped_cons in B as (k' & E & Ls & B). injection E as <-.
    cbn [concat]. intros E.
    assert (H : r = s /\ concat a = concat b).
    { clear -Lr Ls E. assert (L : @length R r = @length R s) by exact (eq_trans Lr (eq_sym Ls)). clear Lr Ls. revert s L E.
      induction r as [|x r IH]; intros [|y s] L E; try discriminate; auto.
      injection E as -> E. destruct (IH s) as [-> ->]; auto. }
    destruct H as [-> H]. f_equal. exact (IH k b A B H).
Qed.
Lemma frobenius_value n d a b : shaped n d a -> shaped n d b ->
  frobenius_arrays a b = Ret (@DFin RNum (norm2 (vsubl (concat a) (concat b)))).
Proof. intros A B. unfold frobenius_arrays. rewrite (shaped_sub _ _ _ _ A B). destruct (concat_diff _ _ _ _ A B) as [-> _]. reflexivity. Qed.
Lemma frobenius_metric n d : metric n d frobenius_arrays.
Proof.
  pose proof (norm2_ok (n * d)) as ok.
  assert (L : forall a, shaped n d a -> @length R (concat a) = (n * d)%nat) by (intros a A; exact (proj2 (concat_diff n d a a A A))).
  constructor.
  - intros a b A B. rewrite (frobenius_value n d a b A B). eexists. split; [reflexivity|]. split; [apply norm2_nonneg|].
    rewrite (no_zero _ _ ok (concat a) (concat b) (L a A) (L b B)). split; [apply (concat_inj n d); auto|intros ->; reflexivity].
  - intros a b A B. rewrite !(frobenius_value n d) by auto. rewrite (no_sym _ _ ok (concat a) (concat b) (L a A) (L b B)). reflexivity.
  - intros a b c x y z A B C. rewrite !(frobenius_value n d) by auto. intros X Y Z. injection X as <-. injection Y as <-. injection Z as <-.
    exact (no_tri _ _ ok _ _ _ (L a A) (L b B) (L c C)).
Qed.
Lemma mean_euclidean_metric n d : (0 < n)%nat -> metric n d mean_euclidean_arrays.
Proof. exact (mean_norm_metric d norm2 (norm2_ok d) n). Qed.
Lemma mean_manhattan_metric n d : (0 < n)%nat -> metric n d mean_manhattan_arrays.
Proof. exact (mean_norm_metric d norm1 (norm1_ok d) n). Qed.

(** ** The documented formulas *)
Lemma total_ext n f g : (forall k, (k < n)%nat -> f k = g k) -> total n f = total n g.
Proof. induction n as [|n IH]; intros H; cbn; auto. rewrite IH, H by (intros; auto). reflexivity. Qed.
Lemma total_front n f : total (S n) f = f O + total n (fun k => f (S k)).
Proof. induction n as [|n IH]; [cbn; ring|]. cbn [total] in *. rewrite IH. ring. Qed.
Lemma rsum_total (g : R -> R) r : forall s d, length r = d -> length s = d ->
  rsum (map g (vsubl r s)) = total d (fun j => g (nth j r 0 - nth j s 0)).
Proof.
  induction r as [|x r IH]; intros [|y s] d H1 H2; cbn in H1, H2; subst d; try discriminate; auto.
  rewrite total_front. unfold vsubl in *. rewrite map2_cons. cbn [map nth]; rewrite !rsum_cons. f_equal. apply (IH s); auto.
Qed.
Lemma row_euclidean d r s : length r = d -> length s = d ->
  norm2 (vsubl r s) = sqrt (total d (fun j => (nth j r 0 - nth j s 0) ^ 2)).
Proof.
  intros R1 R2. unfold norm2. f_equal. rewrite (rsum_total (fun x => x * x) r s d R1 R2). apply total_ext. intros; ring.
Qed.
Lemma rows_total d (nm : list R -> R) (f : list R -> list R -> R) :
  (forall r s, length r = d -> length s = d -> nm (vsubl r s) = f r s) ->
  forall a b n, shaped n d a -> shaped n d b -> rsum (map nm (diff a b)) = total n (fun i => f (nth i a []) (nth i b [])).
Proof.
  intros Hf. induction a as [|r a IH]; intros [|s b] n A B.
  - destruct A as [<- _]. reflexivity.
  - destruct A as [<- _]. destruct B as [B _]. discriminate.
  - destruct B as [<- _]. destruct A as [A _]. discriminate.
  - apply shaped_cons in A as (k & -> & Lr & A). apply shaped_cons in B as (k' & E & Ls & B). injection E as <-.
    rewrite total_front, diff_cons. cbn [map nth]; rewrite !rsum_cons. rewrite (Hf r s Lr Ls). f_equal. exact (IH b k A B).
Qed.
Lemma mean_euclidean_formula n d a b : (0 < n)%nat -> shaped n d a -> shaped n d b ->
  mean_euclidean_arrays a b = Ret (@DFin RNum (total n (point_euclidean d a b) / INR n)).
Proof.
  intros Hn A B. rewrite (mean_norm_value d norm2 n a b Hn A B : mean_euclidean_arrays a b = _). do 3 f_equal.
  exact (rows_total d norm2 (fun r s => sqrt (total d (fun j => (nth j r 0 - nth j s 0) ^ 2))) (row_euclidean d) a b n A B).
Qed.
Lemma mean_manhattan_formula n d a b : (0 < n)%nat -> shaped n d a -> shaped n d b ->
  mean_manhattan_arrays a b = Ret (@DFin RNum (total n (point_manhattan d a b) / INR n)).
Proof.
  intros Hn A B. rewrite (mean_norm_value d norm1 n a b Hn A B : mean_manhattan_arrays a b = _). do 3 f_equal.
  exact (rows_total d norm1 (fun r s => total d (fun j => Rabs (nth j r 0 - nth j s 0)))
           (fun r s H1 H2 => rsum_total Rabs r s d H1 H2) a b n A B).
Qed.
Lemma sq_app a b : sq (a ++ b) = sq a + sq b.
Proof. unfold sq. rewrite map_app. apply rsum_app. Qed.
Lemma sq_concat m : sq (concat m) = rsum (map sq m).
Proof. induction m as [|r m IH]; [reflexivity|]. cbn [concat map]; rewrite !rsum_cons. rewrite sq_app, IH. reflexivity. Qed.
Lemma frobenius_formula n d a b : shaped n d a -> shaped n d b ->
  frobenius_arrays a b = Ret (@DFin RNum (sqrt (total n (fun i => total d (fun j => (entry a i j - entry b i j) ^ 2))))).
Proof.
  intros A B. unfold frobenius_arrays. rewrite (shaped_sub _ _ _ _ A B). do 2 f_equal.
  change (norm2 (concat (diff a b)) = sqrt (total n (fun i => total d (fun j => (entry a i j - entry b i j) ^ 2)))).
  rewrite norm2_sq. f_equal. rewrite sq_concat.
  apply (rows_total d sq (fun r s => total d (fun j => (nth j r 0 - nth j s 0) ^ 2))); auto.
  intros r s H1 H2. unfold sq. rewrite (rsum_total (fun x => x * x) r s d H1 H2). apply total_ext. intros; ring.
Qed.
(** The mean of no points is NaN; arrays of different shape raise. *)
Lemma no_points f : f = mean_euclidean_arrays \/ f = mean_manhattan_arrays -> f [] [] = Ret DNaN.
Proof. intros [->| ->]; reflexivity. Qed.
Lemma same_shape_iff a b : same_shape a b = true <-> map (@length R) a = map (@length R) b.
Proof.
  unfold same_shape. revert b. induction a as [|r a IH]; intros [|s b]; cbn; try (split; [discriminate|discriminate]); [tauto|].
  specialize (IH b). rewrite andb_true_iff in *. split.
  - intros [L F]. apply andb_true_iff in F as [E F]. apply Nat.eqb_eq in E. f_equal; [exact E|]. apply IH. auto.
  - intros E. injection E as E1 E2. apply IH in E2 as [L F]. split; auto. apply andb_true_iff. split; [apply Nat.eqb_eq; exact E1|exact F].
Qed.
Lemma shapes_differ a b : map (@length R) a <> map (@length R) b -> array_sub a b = Raise EValueError.
Proof. intros H. unfold array_sub. destruct (same_shape a b) eqn:E; auto. apply same_shape_iff in E. contradiction. Qed.

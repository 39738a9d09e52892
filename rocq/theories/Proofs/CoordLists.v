(** C111: lists in another order. *)
From Coq Require Import ZArith Bool Arith List Lia Permutation.
From Verif Require Import Model.Num Model.Base Model.Filter Spec.CoordSpec Proofs.UnitLists.
Import ListNotations.

Section L.
Variable d : nat.
Variable order : list nat.
Hypothesis Ho : Permutation order (seq 0 d).
Lemma order_length : length order = d.
Proof. rewrite (Permutation_length Ho). apply seq_length. Qed.
Lemma order_bound : Forall (fun j => j < d) order.
Proof. apply Forall_forall. intros j Hj. apply (Permutation_in _ Ho), in_seq in Hj. lia. Qed.
Lemma picks_length {A} (x : A) l : length (picks x order l) = d.
Proof. unfold picks. rewrite map_length. apply order_length. Qed.
Lemma picks_ext {A} (x y : A) l l' : (forall j, j < d -> nth j l x = nth j l' y) -> picks x order l = picks y order l'.
Proof. intros H. unfold picks. apply map_ext_in. intros j Hj. apply H. pose proof order_bound as B. rewrite Forall_forall in B. auto. Qed.
Lemma picks_default {A} (x y : A) l : length l = d -> picks x order l = picks y order l.
Proof. intros H. apply picks_ext. intros j Hj. apply nth_indep. lia. Qed.
Lemma repeat_nth {A} (a x : A) k : forall j, j < k -> nth j (repeat a k) x = a.
Proof. induction k as [|k IH]; intros [|j] H; cbn; auto; try lia. apply IH. lia. Qed.
Lemma picks_repeat {A} (a x : A) : picks x order (repeat a d) = repeat a d.
Proof.
  transitivity (repeat a (length order)); [|rewrite order_length; reflexivity]. unfold picks. pose proof order_bound as B. clear Ho.
  induction B as [|j l Hj _ IH]; cbn; auto. rewrite IH, (repeat_nth a x d j Hj). reflexivity.
Qed.
Lemma picks_map {A B} (f : A -> B) x y l : length l = d -> picks y order (map f l) = map f (picks x order l).
Proof.
  intros H. unfold picks. rewrite map_map. apply map_ext_in. intros j Hj. pose proof order_bound as B0. rewrite Forall_forall in B0. specialize (B0 j Hj).
  rewrite (nth_indep _ y (f x)) by (rewrite map_length; lia). apply map_nth.
Qed.
Lemma map2_nth {A B C} (op : A -> B -> C) a b c : forall l l' j, j < length l -> j < length l' -> nth j (map2 op l l') c = op (nth j l a) (nth j l' b).
Proof. unfold map2. induction l as [|x l IH]; intros [|y l'] [|j] H1 H2; cbn in *; try lia; auto. apply IH; lia. Qed.
Lemma picks_map2 {A B C} (op : A -> B -> C) a b c l l' : length l = d -> length l' = d ->
  map2 op (picks a order l) (picks b order l') = picks c order (map2 op l l').
Proof.
  intros H H'. unfold picks. pose proof order_bound as Bd. clear Ho. induction Bd as [|j o Hj _ IH]; cbn; auto. unfold map2 in *. cbn. rewrite IH. f_equal.
  symmetry. apply (map2_nth op); lia.
Qed.
(** The same values in another order. *)
Lemma picks_perm {A} (x : A) l : length l = d -> Permutation (picks x order l) l.
Proof.
  intros H. unfold picks. eapply Permutation_trans; [apply Permutation_map, Ho|]. assert (E : map (fun j => nth j l x) (seq 0 d) = l); [|rewrite E; reflexivity].
  rewrite <- H. clear. induction l as [|a l IH]; cbn; auto. f_equal. rewrite <- seq_shift, map_map. exact IH.
Qed.
End L.

(** Order of points and order of axes together. *)
Section PA.
Variables dim n : nat.
Hypothesis Hdim : 0 < dim.
Notation pa_order := (pa_order dim).
Lemma flat_map_perm {A B} (f : A -> list B) l l' : Permutation l l' -> Permutation (flat_map f l) (flat_map f l').
Proof.
  induction 1; cbn; auto.
  - apply Permutation_app_head; auto.
  - rewrite !app_assoc. apply Permutation_app_tail, Permutation_app_comm.
  - eapply Permutation_trans; eauto.
Qed.
Lemma flat_map_perm2 {A B} (f g : A -> list B) l : (forall x, Permutation (f x) (g x)) -> Permutation (flat_map f l) (flat_map g l).
Proof. intros H. induction l; cbn; auto. apply Permutation_app; auto. Qed.
Lemma pa_is_order sigma tau : Permutation sigma (seq 0 n) -> Permutation tau (seq 0 dim) -> is_order dim n (pa_order sigma tau).
Proof.
  intros Hs Ht. unfold is_order, CoordSpec.pa_order. eapply Permutation_trans; [apply flat_map_perm, Hs|].
  eapply Permutation_trans; [apply flat_map_perm2; intros i; apply Permutation_map, Ht|].
  assert (E : forall a k, flat_map (fun i => map (fun k => dim * i + k) (seq 0 dim)) (seq a k) = seq (dim * a) (dim * k)).
  { intros a k. revert a. induction k as [|k IH]; intros a; [rewrite Nat.mul_0_r; reflexivity|]. cbn [seq flat_map]. rewrite IH.
    replace (dim * S k) with (dim + dim * k) by lia. rewrite seq_app. f_equal; [|f_equal; lia].
    generalize (dim * a). intros m. clear. assert (G : forall e s, map (fun k => m + k) (seq s e) = seq (m + s) e).
    { induction e as [|e IH]; intros s; cbn; auto. rewrite IH. do 2 f_equal. lia. }
    rewrite G, Nat.add_0_r. reflexivity. }
  rewrite E, Nat.mul_0_r. reflexivity.
Qed.
Context {N : Num}.
Lemma flat_nth (p : points N) : Forall (fun row => length row = dim) p -> forall i k, k < dim -> nth (dim * i + k) (flatten p) n0 = nth k (nth i p []) n0.
Proof.
  unfold flatten. induction 1 as [|row p Hr _ IH]; intros i k Hk; cbn [concat]; [destruct i; cbn; destruct k; destruct (dim * _ + _); reflexivity|].
  destruct i as [|i]; cbn [nth].
  - rewrite Nat.mul_0_r. cbn. apply app_nth1. lia.
  - rewrite app_nth2 by (rewrite Hr; nia). rewrite Hr. replace (dim * S i + k - dim) with (dim * i + k) by nia. apply IH, Hk.
Qed.
Lemma pa_in_order sigma tau (p : points N) : Permutation sigma (seq 0 n) -> Permutation tau (seq 0 dim) -> sized dim n p ->
  in_order dim (pa_order sigma tau) p = points_and_axes sigma tau p.
Proof.
  intros Hs Ht [L F]. unfold in_order. rewrite <- (reshape_flatten dim Hdim (points_and_axes sigma tau p)).
  - f_equal. unfold CoordSpec.pa_order, points_and_axes, flatten at 2, picks. pose proof (order_bound n sigma Hs) as Bs. pose proof (order_bound dim tau Ht) as Bt.
    clear Hs. induction Bs as [|i s Hi _ IH]; cbn; auto. rewrite map_app, IH. f_equal. rewrite map_map.
    rewrite (nth_indep _ [] (map (fun j => nth j (@nil N) n0) tau)) by (rewrite map_length; lia). rewrite (map_nth (fun row => map (fun j => nth j row n0) tau)).
    clear -F Bt Hdim. induction Bt as [|k t Hk _ IH]; cbn; auto. rewrite IH. f_equal. apply flat_nth; auto.
  - unfold points_and_axes. unfold picks at 1. apply Forall_map. pose proof (order_bound n sigma Hs) as Bs. eapply Forall_impl; [|exact Bs]. intros i Hi. cbn in Hi |- *.
    rewrite (nth_indep _ [] (picks n0 tau [])) by (rewrite map_length; lia). rewrite map_nth. apply (picks_length dim tau Ht).
Qed.
End PA.

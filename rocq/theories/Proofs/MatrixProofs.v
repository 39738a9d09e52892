(** Matrices made of four diagonal blocks. *)
From Coq Require Import Reals Lra Lia Bool List Arith.
From Verif Require Import Model.KalmanMatrix.
Local Open Scope R_scope.

Lemma sum_ext n f g : (forall k, (k < n)%nat -> f k = g k) -> sum n f = sum n g.
Proof. induction n as [|n IH]; intros H; cbn; auto. rewrite IH, H by (intros; auto). reflexivity. Qed.
Lemma sum_zero n f : (forall k, (k < n)%nat -> f k = 0) -> sum n f = 0.
Proof. induction n as [|n IH]; intros H; cbn; auto. rewrite IH, H by (intros; auto). ring. Qed.
Lemma sum_plus n f g : sum n (fun k => f k + g k) = sum n f + sum n g.
Proof. induction n as [|n IH]; cbn; [ring|]. rewrite IH. ring. Qed.
Lemma sum_single n f a : (a < n)%nat -> (forall k, (k < n)%nat -> k <> a -> f k = 0) -> sum n f = f a.
Proof.
  induction n as [|n IH]; intros Ha H; [lia|]. cbn. destruct (Nat.eq_dec a n) as [->|Hn].
  - rewrite sum_zero; [ring|]. intros k Hk. apply H; lia.
  - rewrite IH, (H n); [ring|lia|lia|lia|]. intros k Hk. apply H. lia.
Qed.
Lemma sum_two n f a b : (a < n)%nat -> (b < n)%nat -> a <> b -> (forall k, (k < n)%nat -> k <> a -> k <> b -> f k = 0) -> sum n f = f a + f b.
Proof.
  intros Ha Hb Hab H.
  rewrite (sum_ext n f (fun k => (if Nat.eqb k a then f a else 0) + (if Nat.eqb k b then f b else 0))).
  - rewrite sum_plus. rewrite (sum_single n _ a Ha), (sum_single n _ b Hb).
    + rewrite !Nat.eqb_refl. reflexivity.
    + intros k _ Hk. apply Nat.eqb_neq in Hk. rewrite Hk. reflexivity.
    + intros k _ Hk. apply Nat.eqb_neq in Hk. rewrite Hk. reflexivity.
  - intros k Hk. destruct (Nat.eqb_spec k a) as [H1|H1]; destruct (Nat.eqb_spec k b) as [H2|H2]; try (subst; lra); [congruence|].
    rewrite H by auto. ring.
Qed.

(** Entry (i, j) of ((diag a, diag b), (diag c, diag e)), blocks of size d. *)
Definition blk (d : nat) (a b c e : nat -> R) : mat := fun i j =>
  if Nat.ltb i d then
    if Nat.ltb j d then if Nat.eqb i j then a i else 0
    else if Nat.eqb (i + d) j then b i else 0
  else
    if Nat.ltb j d then if Nat.eqb i (j + d) then c j else 0
    else if Nat.eqb i j then e (i - d)%nat else 0.
Definition zf : nat -> R := fun _ => 0.

Definition meq (n m : nat) (A B : mat) : Prop := forall i j, (i < n)%nat -> (j < m)%nat -> A i j = B i j.

Ltac cases := repeat match goal with
  | |- context [Nat.ltb ?i ?d] => destruct (Nat.ltb_spec i d)
  | |- context [Nat.eqb ?i ?d] => destruct (Nat.eqb_spec i d)
  end; try lia.

Lemma split2 d i : (i < 2 * d)%nat -> exists k, (k < d)%nat /\ (i = k \/ i = (k + d)%nat).
Proof. intros H. destruct (lt_dec i d); [exists i|exists (i - d)%nat]; lia. Qed.

Lemma blk_00 d a b c e k j : (k < d)%nat -> (j < d)%nat -> blk d a b c e k j = if Nat.eqb k j then a k else 0.
Proof. intros. unfold blk. cases; reflexivity. Qed.
Lemma blk_01 d a b c e k j : (k < d)%nat -> (j < d)%nat -> blk d a b c e k (j + d)%nat = if Nat.eqb k j then b k else 0.
Proof. intros. unfold blk. cases; reflexivity. Qed.
Lemma blk_10 d a b c e k j : (k < d)%nat -> (j < d)%nat -> blk d a b c e (k + d)%nat j = if Nat.eqb k j then c k else 0.
Proof. intros. unfold blk. cases; subst; reflexivity. Qed.
Lemma blk_11 d a b c e k j : (k < d)%nat -> (j < d)%nat -> blk d a b c e (k + d)%nat (j + d)%nat = if Nat.eqb k j then e k else 0.
Proof. intros. unfold blk. cases; subst; try reflexivity. f_equal. lia. Qed.

Ltac blks := repeat (rewrite blk_11 by auto); repeat (rewrite blk_01 by auto); repeat (rewrite blk_10 by auto); repeat (rewrite blk_00 by auto).

Lemma sum_pair d f k : (k < d)%nat -> (forall l, (l < d)%nat -> l <> k -> f l = 0 /\ f (l + d)%nat = 0) -> sum (2 * d) f = f k + f (k + d)%nat.
Proof.
  intros Hk H. apply sum_two; try lia. intros l Hl H1 H2. destruct (split2 d l Hl) as (m & Hm & [-> | ->]); apply H; lia.
Qed.

Lemma blk_mul d a b c e a' b' c' e' : meq (2 * d) (2 * d) (mmul (2 * d) (blk d a b c e) (blk d a' b' c' e'))
  (blk d (fun k => a k * a' k + b k * c' k) (fun k => a k * b' k + b k * e' k)
         (fun k => c k * a' k + e k * c' k) (fun k => c k * b' k + e k * e' k)).
Proof.
  intros i j Hi Hj. unfold mmul.
  destruct (split2 d i Hi) as (k & Hk & Ei). destruct (split2 d j Hj) as (l & Hl & Ej).
  rewrite (sum_pair d _ k Hk).
  - destruct Ei as [-> | ->], Ej as [-> | ->]; blks; rewrite ?Nat.eqb_refl;
      destruct (Nat.eqb_spec k l); subst; cbv beta; ring.
  - intros m Hm Hmk. apply Nat.eqb_neq in Hmk. rewrite Nat.eqb_sym in Hmk.
    destruct Ei as [-> | ->]; blks; rewrite ?Hmk; split; ring.
Qed.
Lemma blk_add d a b c e a' b' c' e' i j : madd (blk d a b c e) (blk d a' b' c' e') i j =
  blk d (fun k => a k + a' k) (fun k => b k + b' k) (fun k => c k + c' k) (fun k => e k + e' k) i j.
Proof. unfold madd, blk. cases; ring. Qed.
Lemma blk_sub d a b c e a' b' c' e' i j : msub (blk d a b c e) (blk d a' b' c' e') i j =
  blk d (fun k => a k - a' k) (fun k => b k - b' k) (fun k => c k - c' k) (fun k => e k - e' k) i j.
Proof. unfold msub, blk. cases; ring. Qed.
Lemma blk_tr d a b c e i j : (i < 2 * d)%nat -> (j < 2 * d)%nat -> tr (blk d a b c e) i j = blk d a c b e i j.
Proof.
  intros Hi Hj. unfold tr. destruct (split2 d i Hi) as (k & Hk & Ei). destruct (split2 d j Hj) as (l & Hl & Ej).
  destruct Ei as [-> | ->], Ej as [-> | ->]; blks; rewrite (Nat.eqb_sym l k);
    destruct (Nat.eqb_spec k l); subst; reflexivity.
Qed.
Lemma blk_ext d a b c e a' b' c' e' i j : (i < 2 * d)%nat -> (j < 2 * d)%nat ->
  (forall k, (k < d)%nat -> a k = a' k /\ b k = b' k /\ c k = c' k /\ e k = e' k) ->
  blk d a b c e i j = blk d a' b' c' e' i j.
Proof.
  intros Hi Hj H. destruct (split2 d i Hi) as (k & Hk & Ei). destruct (split2 d j Hj) as (l & Hl & Ej).
  destruct (H k Hk) as (A & B & C & E).
  destruct Ei as [-> | ->], Ej as [-> | ->]; blks; rewrite ?A, ?B, ?C, ?E; reflexivity.
Qed.
Lemma blk_vec d a b c e v k : (k < d)%nat ->
  mvec (2 * d) (blk d a b c e) v k = a k * v k + b k * v (k + d)%nat /\
  mvec (2 * d) (blk d a b c e) v (k + d)%nat = c k * v k + e k * v (k + d)%nat.
Proof.
  intros Hk. unfold mvec. split; rewrite (sum_pair d _ k Hk).
  - rewrite blk_00, blk_01, Nat.eqb_refl by auto. reflexivity.
  - intros m Hm Hmk. apply Nat.eqb_neq in Hmk. rewrite Nat.eqb_sym in Hmk. rewrite blk_00, blk_01, Hmk by auto. split; ring.
  - rewrite blk_10, blk_11, Nat.eqb_refl by auto. reflexivity.
  - intros m Hm Hmk. apply Nat.eqb_neq in Hmk. rewrite Nat.eqb_sym in Hmk. rewrite blk_10, blk_11, Hmk by auto. split; ring.
Qed.

Lemma mmul_ext n p m A A' B B' : meq p n A A' -> meq n m B B' -> meq p m (mmul n A B) (mmul n A' B').
Proof. intros HA HB i j Hi Hj. unfold mmul. apply sum_ext. intros k Hk. rewrite HA, HB by auto. reflexivity. Qed.
Lemma meq_trans n m A B C : meq n m A B -> meq n m B C -> meq n m A C.
Proof. intros H1 H2 i j Hi Hj. rewrite H1, H2 by auto. reflexivity. Qed.
Lemma meq_sym n m A B : meq n m A B -> meq n m B A.
Proof. intros H i j Hi Hj. rewrite H by auto. reflexivity. Qed.
Lemma meq_sub n m n' m' A B : (n' <= n)%nat -> (m' <= m)%nat -> meq n m A B -> meq n' m' A B.
Proof. intros H1 H2 H i j Hi Hj. apply H; lia. Qed.
Lemma mvec_ext n p A A' v v' : meq p n A A' -> (forall k, (k < n)%nat -> v k = v' k) -> forall i, (i < p)%nat -> mvec n A v i = mvec n A' v' i.
Proof. intros HA Hv i Hi. unfold mvec. apply sum_ext. intros k Hk. rewrite HA, Hv by auto. reflexivity. Qed.

Lemma sum_half d f : (forall k, (k < d)%nat -> f (k + d)%nat = 0) -> sum (2 * d) f = sum d f.
Proof.
  intros H. replace (2 * d)%nat with (d + d)%nat by lia.
  enough (G : forall m, (m <= d)%nat -> sum (m + d) f = sum d f) by (apply G; lia).
  induction m as [|m IH]; intros Hm; auto. cbn. rewrite IH, H by lia. ring.
Qed.

(** A product over the first half of the indices only. *)
Lemma blk_mul_half d a b c e a' b' : meq (2 * d) (2 * d) (mmul d (blk d a b c e) (blk d a' b' zf zf))
  (blk d (fun k => a k * a' k) (fun k => a k * b' k) (fun k => c k * a' k) (fun k => c k * b' k)).
Proof.
  intros i j Hi Hj.
  assert (E : mmul d (blk d a b c e) (blk d a' b' zf zf) i j = mmul (2 * d) (blk d a b c e) (blk d a' b' zf zf) i j).
  { symmetry. apply sum_half. intros k Hk. destruct (split2 d j Hj) as (l & Hl & [-> | ->]); rewrite ?blk_10, ?blk_11 by auto;
      unfold zf; destruct (Nat.eqb k l); ring. }
  rewrite E, blk_mul by auto. apply blk_ext; auto. intros k Hk. unfold zf. repeat split; ring.
Qed.
Lemma blk_vec_half d a b c e v k : (k < d)%nat ->
  mvec d (blk d a b c e) v k = a k * v k /\ mvec d (blk d a b c e) v (k + d)%nat = c k * v k.
Proof.
  intros Hk. unfold mvec. split; rewrite (sum_single d _ k Hk).
  - rewrite blk_00, Nat.eqb_refl by auto. reflexivity.
  - intros l Hl Hlk. apply Nat.eqb_neq in Hlk. rewrite Nat.eqb_sym in Hlk. rewrite blk_00, Hlk by auto. ring.
  - rewrite blk_10, Nat.eqb_refl by auto. reflexivity.
  - intros l Hl Hlk. apply Nat.eqb_neq in Hlk. rewrite Nat.eqb_sym in Hlk. rewrite blk_10, Hlk by auto. ring.
Qed.

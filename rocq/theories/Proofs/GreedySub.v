(** The greedy assignment of a part of a table that is not connected to the rest. *)
From Coq Require Import List Arith Bool Lia Sorting.Sorted.
From Verif Require Import Model.Num Model.Matching Spec.MatchingSpec Proofs.NumLaws Proofs.MatchingProofs Proofs.GreedyProofs.
Import ListNotations.

Section S.
Context {N : Num} (laws : NumLaws N).
Notation dv := (dval N).

Lemma filter_remove (p : nat -> bool) i l : filter p (remove Nat.eq_dec i l) = remove Nat.eq_dec i (filter p l).
Proof.
  induction l as [|x l IH]; [reflexivity|]. cbn. destruct (Nat.eq_dec i x) as [->|Hne].
  - destruct (p x); cbn; [destruct (Nat.eq_dec x x); [exact IH|contradiction]|exact IH].
  - cbn. destruct (p x); cbn; [destruct (Nat.eq_dec i x); [contradiction|]; rewrite IH; reflexivity|exact IH].
Qed.
Lemma remove_absent i l : ~ In i l -> remove Nat.eq_dec i l = l.
Proof. apply notin_remove. Qed.
Lemma filter_remove_not (p : nat -> bool) i l : p i = false -> filter p (remove Nat.eq_dec i l) = filter p l.
Proof. intros H. rewrite filter_remove. apply remove_absent. intros X. apply filter_In in X. destruct X; congruence. Qed.

Lemma greedy_filter (d : nat -> nat -> dv) thr pr pc rows cols P : greedy d thr rows cols P ->
  (forall i j, In i rows -> In j cols -> pr i <> pc j -> ~ dlt (d i j) thr) ->
  greedy d thr (filter pr rows) (filter pc cols) (filter (fun q => pr (fst q)) P).
Proof.
  induction 1 as [rows cols H|rows cols i j pairs Hi Hj Hlt Hmin G IH]; intros B.
  - constructor. intros i j Hi Hj. apply filter_In in Hi. apply filter_In in Hj. apply H; tauto.
  - assert (E : pr i = pc j). { destruct (Bool.bool_dec (pr i) (pc j)); [assumption|]. exfalso. exact (B i j Hi Hj n Hlt). }
    assert (B' : forall a b, In a (remove Nat.eq_dec i rows) -> In b (remove Nat.eq_dec j cols) -> pr a <> pc b -> ~ dlt (d a b) thr).
    { intros a b Ha Hb. apply in_remove in Ha. apply in_remove in Hb. apply B; tauto. }
    specialize (IH B'). cbn [filter fst]. destruct (pr i) eqn:Ep.
    + constructor; [apply filter_In; auto|apply filter_In; auto|exact Hlt| |].
      * intros a b Ha Hb. apply filter_In in Ha. apply filter_In in Hb. apply Hmin; tauto.
      * rewrite <- !filter_remove. exact IH.
    + rewrite (filter_remove_not pr i rows Ep), (filter_remove_not pc j cols (eq_sym E)) in IH. exact IH.
Qed.

Lemma remove_map (f : nat -> nat) a l : (forall x, In x l -> f x = f a -> x = a) -> remove Nat.eq_dec (f a) (map f l) = map f (remove Nat.eq_dec a l).
Proof.
  induction l as [|x l IH]; intros I; [reflexivity|]. cbn. assert (IH' := IH (fun y Hy => I y (or_intror Hy))).
  destruct (Nat.eq_dec (f a) (f x)) as [E|E], (Nat.eq_dec a x) as [E'|E']; cbn.
  - exact IH'.
  - elim E'. symmetry. apply I; [left; reflexivity|congruence].
  - subst. contradiction.
  - rewrite IH'. reflexivity.
Qed.
Definition increasing (f : nat -> nat) (l : list nat) : Prop := forall x y, In x l -> In y l -> x < y -> f x < f y.
Lemma increasing_inj f l x y : increasing f l -> In x l -> In y l -> f x = f y -> x = y.
Proof.
  intros I Hx Hy E. destruct (lt_eq_lt_dec x y) as [[H|H]|H]; [|exact H|].
  - specialize (I x y Hx Hy H). lia.
  - specialize (I y x Hy Hx H). lia.
Qed.
Lemma increasing_back f l x y : increasing f l -> In x l -> In y l -> f x < f y -> x < y.
Proof.
  intros I Hx Hy E. destruct (lt_eq_lt_dec x y) as [[H|H]|H]; [exact H|subst; lia|]. specialize (I y x Hy Hx H). lia.
Qed.
Definition both (f g : nat -> nat) (q : nat * nat) : nat * nat := (f (fst q), g (snd q)).

Lemma greedy_map (d : nat -> nat -> dv) thr f g P : forall rows cols, greedy d thr (map f rows) (map g cols) P ->
  increasing f rows -> increasing g cols ->
  exists Q, P = map (both f g) Q /\ greedy (fun a b => d (f a) (g b)) thr rows cols Q.
Proof.
  induction P as [|[i j] P IH]; intros rows cols G If Ig.
  - exists []. split; [reflexivity|]. inversion G as [? ? H|]; subst. constructor. intros a b Ha Hb. apply H; apply in_map; assumption.
  - inversion G as [|? ? ? ? ? Hi Hj Hlt Hmin G']; subst. apply in_map_iff in Hi as (a & <- & Ha). apply in_map_iff in Hj as (b & <- & Hb).
    rewrite remove_map in G' by (intros x Hx E; exact (increasing_inj f rows x a If Hx Ha E)).
    rewrite remove_map in G' by (intros x Hx E; exact (increasing_inj g cols x b Ig Hx Hb E)).
    destruct (IH _ _ G') as (Q & -> & GQ).
    + intros x y Hx Hy. apply in_remove in Hx. apply in_remove in Hy. apply If; tauto.
    + intros x y Hx Hy. apply in_remove in Hx. apply in_remove in Hy. apply Ig; tauto.
    + exists ((a, b) :: Q). split; [reflexivity|]. constructor; auto.
      intros a' b' Ha' Hb'. destruct (Hmin (f a') (g b') (in_map _ _ _ Ha') (in_map _ _ _ Hb')) as [M1 M2]. split; [exact M1|].
      intros Bf. apply M2. unfold before in *. cbn in *. destruct Bf as [Bf|[-> Bf]]; [left; apply If; auto|right; split; [reflexivity|apply Ig; auto]].
Qed.

(** Positions of the elements with [p]. *)
Definition positions {A} (p : A -> bool) (l : list A) (dflt : A) : list nat := filter (fun k => p (nth k l dflt)) (seq 0 (length l)).
Lemma filter_shift (p : nat -> bool) n : forall k, filter p (seq (S k) n) = map S (filter (fun x => p (S x)) (seq k n)).
Proof. induction n as [|n IH]; intros k; [reflexivity|]. cbn [seq filter]. rewrite IH. destruct (p (S k)); reflexivity. Qed.
Lemma positions_cons {A} (p : A -> bool) x l dflt : positions p (x :: l) dflt = if p x then 0 :: map S (positions p l dflt) else map S (positions p l dflt).
Proof. unfold positions. cbn [length seq filter nth]. rewrite filter_shift. cbn [nth]. destruct (p x); reflexivity. Qed.
Lemma positions_filter {A} (p : A -> bool) l dflt : map (fun k => nth k l dflt) (positions p l dflt) = filter p l.
Proof.
  induction l as [|x l IH]; [reflexivity|]. rewrite positions_cons. cbn [filter]. destruct (p x); cbn [map]; rewrite map_map; cbn [nth]; rewrite IH; reflexivity.
Qed.
Lemma positions_length {A} (p : A -> bool) l dflt : length (positions p l dflt) = length (filter p l).
Proof. rewrite <- (positions_filter p l dflt), map_length. reflexivity. Qed.
Lemma seq_sorted n : forall k, StronglySorted lt (seq k n).
Proof.
  induction n as [|n IH]; intros k; cbn; constructor; [apply IH|]. apply Forall_forall. intros x Hx. apply in_seq in Hx. lia.
Qed.
Lemma sorted_filter (p : nat -> bool) l : StronglySorted lt l -> StronglySorted lt (filter p l).
Proof.
  induction 1 as [|x l H IH F]; cbn; [constructor|]. destruct (p x); [|exact IH]. constructor; [exact IH|].
  apply Forall_forall. intros y Hy. apply filter_In in Hy. rewrite Forall_forall in F. apply F. tauto.
Qed.
Lemma sorted_nth (l : list nat) : StronglySorted lt l -> forall a b, a < b -> b < length l -> nth a l 0 < nth b l 0.
Proof.
  induction 1 as [|x l H IH F]; intros a b Hab Hb; [cbn in Hb; lia|]. destruct b as [|b]; [lia|]. cbn in Hb. destruct a as [|a]; cbn.
  - rewrite Forall_forall in F. apply F. apply nth_In. lia.
  - apply IH; lia.
Qed.
Lemma list_as_map (l : list nat) : l = map (fun a => nth a l 0) (seq 0 (length l)).
Proof.
  induction l as [|x l IH]; [reflexivity|]. cbn [length seq map nth]. f_equal. rewrite <- seq_shift, map_map. cbn [nth]. exact IH.
Qed.
Lemma positions_increasing {A} (p : A -> bool) l dflt : increasing (fun a => nth a (positions p l dflt) 0) (seq 0 (length (filter p l))).
Proof.
  intros x y Hx Hy H. apply in_seq in Hy. apply sorted_nth; [|exact H|rewrite positions_length; lia]. apply sorted_filter, seq_sorted.
Qed.
Lemma positions_in {A} (p : A -> bool) l dflt k : In k (positions p l dflt) <-> k < length l /\ p (nth k l dflt) = true.
Proof. unfold positions. rewrite filter_In, in_seq. split; intros [H1 H2]; (split; [lia|exact H2]). Qed.

(** ** Termination *)
Lemma match_exists rnd n m thr (M : matrix N) : rect n m M -> nan_free M -> dis_nan (rnd (dsucc thr)) = dis_nan thr ->
  (dltb (rnd (dsucc thr)) thr = false \/ forall i j, i < n -> j < m -> ~ dlt (entry M i j) thr) ->
  exists cis ois, match_dets_and_objs rnd thr M = Some (cis, ois).
Proof.
  intros R F K [H|H].
  - destruct (match_terminates laws rnd n m thr M R F K H) as (a & b & _ & E & _). eauto.
  - exists [], []. unfold match_dets_and_objs. apply (match_loop_none laws _ n m); auto.
Qed.
Lemma match_exists_inv rnd n m thr (M : matrix N) res : rect n m M -> nan_free M -> dis_nan (rnd (dsucc thr)) = dis_nan thr ->
  match_dets_and_objs rnd thr M = Some res ->
  dltb (rnd (dsucc thr)) thr = false \/ forall i j, i < n -> j < m -> ~ dlt (entry M i j) thr.
Proof.
  intros R F K E. destruct (dltb (rnd (dsucc thr)) thr) eqn:D; [right|left; reflexivity]. intros i j Hi Hj Hlt.
  assert (X := proj2 (match_diverges_iff laws rnd n m thr M R F K) (conj D (ex_intro _ i (ex_intro _ j (conj Hi (conj Hj Hlt)))))).
  unfold match_dets_and_objs in E. rewrite X in E. discriminate.
Qed.

(** The matching of a part of the table: rows with [pr], columns with [pc], when no pair below the threshold has only one of them. *)
Theorem sub_match rnd n m n' m' thr (M M' : matrix N) (f g : nat -> nat) pr pc cis ois :
  rect n m M -> rect n' m' M' -> nan_free M -> nan_free M' -> dis_nan (rnd (dsucc thr)) = dis_nan thr ->
  filter pr (seq 0 n) = map f (seq 0 n') -> filter pc (seq 0 m) = map g (seq 0 m') ->
  increasing f (seq 0 n') -> increasing g (seq 0 m') ->
  (forall a b, a < n' -> b < m' -> entry M' a b = entry M (f a) (g b)) ->
  (forall i j, i < n -> j < m -> pr i <> pc j -> ~ dlt (entry M i j) thr) ->
  match_dets_and_objs rnd thr M = Some (cis, ois) ->
  exists cis' ois', match_dets_and_objs rnd thr M' = Some (cis', ois') /\
    filter (fun q => pr (fst q)) (combine cis ois) = map (both f g) (combine cis' ois').
Proof.
  intros R R' F F' K Ef Eg If Ig EM B E.
  assert (Rf : forall a, a < n' -> f a < n /\ pr (f a) = true).
  { intros a Ha. assert (X : In (f a) (filter pr (seq 0 n))) by (rewrite Ef; apply in_map, in_seq; lia). apply filter_In in X. destruct X as [X1 X2]. apply in_seq in X1. split; [lia|exact X2]. }
  assert (Rg : forall b, b < m' -> g b < m /\ pc (g b) = true).
  { intros b Hb. assert (X : In (g b) (filter pc (seq 0 m))) by (rewrite Eg; apply in_map, in_seq; lia). apply filter_In in X. destruct X as [X1 X2]. apply in_seq in X1. split; [lia|exact X2]. }
  destruct (match_exists rnd n' m' thr M' R' F' K) as (cis' & ois' & E').
  { destruct (match_exists_inv rnd n m thr M _ R F K E) as [H|H]; [left; exact H|right]. intros a b Ha Hb. rewrite EM by assumption. apply H; [apply Rf, Ha|apply Rg, Hb]. }
  exists cis', ois'. split; [exact E'|].
  assert (G := match_greedy laws rnd n m thr M cis ois R F K E). assert (G' := match_greedy laws rnd n' m' thr M' cis' ois' R' F' K E').
  assert (GF := greedy_filter _ _ pr pc _ _ _ G (fun i j Hi Hj => B i j (proj2 (proj1 (in_seq _ _ _) Hi)) (proj2 (proj1 (in_seq _ _ _) Hj)))).
  rewrite Ef, Eg in GF. destruct (greedy_map _ _ f g _ _ _ GF If Ig) as (Q & -> & GQ).
  f_equal. apply (greedy_unique (fun a b => entry M (f a) (g b)) thr (seq 0 n') (seq 0 m') Q GQ).
  clear - G' EM. assert (X : forall rows cols P, greedy (entry M') thr rows cols P -> (forall a, In a rows -> a < n') -> (forall b, In b cols -> b < m') ->
    greedy (fun a b => entry M (f a) (g b)) thr rows cols P).
  { induction 1 as [rows cols H|rows cols i j pairs Hi Hj Hlt Hmin G IH]; intros Hr Hc.
    - constructor. intros i j Hi Hj. rewrite <- EM by auto. apply H; assumption.
    - constructor; auto.
      + rewrite <- EM by auto. exact Hlt.
      + intros i' j' Hi' Hj'. rewrite <- !EM by auto. apply Hmin; assumption.
      + apply IH; intros x Hx; apply in_remove in Hx; [apply Hr|apply Hc]; tauto. }
  apply X; [exact G'| |]; intros x Hx; apply in_seq in Hx; lia.
Qed.
End S.

(** The cache of the absolute grid. *)
From Coq Require Import ZArith Bool Arith List Lia.
From Verif Require Import Model.Base Model.GridCache Spec.GridCacheSpec.
Import ListNotations.

Lemma key_eqb_spec a b : reflect (a = b) (key_eqb a b).
Proof.
  destruct a as [s w h p], b as [s' w' h' p']. unfold key_eqb. cbn.
  destruct (Nat.eqb_spec s s'), (Z.eqb_spec w w'), (Z.eqb_spec h h'), (Bool.eqb_spec p p'); cbn; constructor; congruence.
Qed.

Lemma remove_not (k : grid_key) l : ~ In k l -> remove key_eq_dec k l = l.
Proof. induction l as [|x l IH]; [reflexivity|]. cbn. destruct (key_eq_dec k x); [intros []; left; congruence|]. intros H. f_equal. apply IH. tauto. Qed.
Lemma remove_nodup (k : grid_key) l : NoDup l -> NoDup (remove key_eq_dec k l).
Proof.
  induction 1 as [|x l H N IH]; [constructor|]. cbn. destruct (key_eq_dec k x); [exact IH|]. constructor; [|exact IH].
  intros I. apply in_remove in I. tauto.
Qed.
Lemma distinct_nodup l : NoDup (distinct l).
Proof. induction l; cbn; constructor; [apply remove_In|apply remove_nodup; assumption]. Qed.
(** Taking the first entries and removing one. *)
Lemma remove_firstn (k : grid_key) n : forall l, NoDup l -> In k (firstn (S n) l) -> remove key_eq_dec k (firstn (S n) l) = firstn n (remove key_eq_dec k l).
Proof.
  induction n as [|n IH]; intros [|x l] N I; try contradiction.
  - cbn in I. destruct I as [->|[]]. cbn. destruct (key_eq_dec k k); [reflexivity|congruence].
  - change (firstn (S (S n)) (x :: l)) with (x :: firstn (S n) l) in *. inversion N as [|? ? H N']; subst. cbn [remove]. destruct (key_eq_dec k x) as [->|D].
    + rewrite (remove_not x l H). apply remove_not. intros J. apply H. rewrite <- (firstn_skipn (S n) l). apply in_or_app. left. exact J.
    + cbn [firstn]. f_equal. apply IH; [exact N'|]. destruct I as [E|I]; [congruence|exact I].
Qed.
Lemma firstn_remove (k : grid_key) n : forall l, ~ In k (firstn n l) -> firstn n (remove key_eq_dec k l) = firstn n l.
Proof.
  induction n as [|n IH]; intros [|x l] I; try reflexivity. cbn [remove]. destruct (key_eq_dec k x) as [->|D]; [destruct I; left; reflexivity|].
  cbn [firstn]. f_equal. apply IH. intros J. apply I. right. exact J.
Qed.

Section P.
Context {Grid : Type} (compute : grid_key -> result Grid).
Implicit Types (c : cache Grid) (t : option (transformation Grid)).

Lemma find_in k c : (exists g, cache_find k c = Some g) <-> In k (map fst c).
Proof.
  induction c as [|[k' g] c IH]; cbn; [split; [intros [g H]; discriminate|intros []]|].
  destruct (key_eqb_spec k k') as [->|D]; [split; eauto|]. rewrite IH. split; [auto|]. intros [E|H]; [congruence|exact H].
Qed.
Lemma drop_keys k c : map fst (cache_drop k c) = remove key_eq_dec k (map fst c).
Proof.
  unfold cache_drop. induction c as [|[k' g] c IH]; [reflexivity|]. cbn. destruct (key_eqb_spec k k') as [->|D].
  - cbn. destruct (key_eq_dec k' k'); [exact IH|congruence].
  - cbn. destruct (key_eq_dec k k'); [congruence|]. f_equal. exact IH.
Qed.
Lemma write_keys k (g : Grid) c : map fst (map (fun e => if key_eqb k (fst e) then (fst e, g) else e) c) = map fst c.
Proof. rewrite map_map. apply map_ext. intros [k' g']. cbn. destruct (key_eqb k k'); reflexivity. Qed.

Lemma positions_keys k t c c' r : grid_positions compute k t c = (c', r) -> exists r', cached compute 4 k c = (fst (cached compute 4 k c), r') /\ map fst c' = map fst (fst (cached compute 4 k c)).
Proof.
  unfold grid_positions. destruct (cached compute 4 k c) as [c1 [g|e]].
  - destruct t as [f|].
    + destruct (f g) as [g' r1]. injection 1 as <- <-. exists (Ret g). split; [reflexivity|apply write_keys].
    + injection 1 as <- <-. exists (Ret g). auto.
  - injection 1 as <- <-. exists (Raise e). auto.
Qed.

(** The keys held, [hist] being the computable keys of the calls so far, the last first. *)
Definition holds (hist : list grid_key) c : Prop := map fst c = firstn 4 (distinct hist) /\ Forall (fun k => computable compute k = true) hist.
Lemma distinct_in k l : In k (distinct l) -> In k l.
Proof. induction l as [|x l IH]; [intros []|]. cbn. intros [->|H]; [auto|]. apply in_remove in H. tauto. Qed.
Lemma holds_step hist k t c c' r : holds hist c -> grid_positions compute k t c = (c', r) ->
  holds (if computable compute k then k :: hist else hist) c'.
Proof.
  intros [K F] E. apply positions_keys in E as (r' & _ & E). unfold holds. rewrite E. unfold cached, computable in *.
  destruct (cache_find k c) as [g|] eqn:C.
  - assert (I : In k (map fst c)) by (apply find_in; eauto).
    assert (Q : In k (firstn 4 (distinct hist))) by (rewrite <- K; exact I).
    assert (J : In k hist).
    { apply distinct_in. rewrite <- (firstn_skipn 4 (distinct hist)). apply in_or_app. left. exact Q. }
    pose proof (proj1 (Forall_forall _ _) F k J) as G. cbn in G. destruct (compute k) eqn:GG; [|discriminate].
    split; [|constructor; [rewrite GG; reflexivity|exact F]]. cbn [fst map]. rewrite drop_keys, K.
    change (firstn 4 (distinct (k :: hist))) with (k :: firstn 3 (remove key_eq_dec k (distinct hist))). f_equal.
    apply remove_firstn; [apply distinct_nodup|exact Q].
  - assert (I : ~ In k (map fst c)). { intros I. apply find_in in I as [g I]. congruence. }
    destruct (compute k) as [g|e] eqn:G; [|split; assumption].
    split; [|constructor; [rewrite G; reflexivity|exact F]].
    change (map fst (fst (firstn 4 ((k, g) :: c), @Ret Grid g))) with (map fst (firstn 4 ((k, g) :: c))).
    rewrite <- firstn_map. change (map fst ((k, g) :: c)) with (k :: map fst c). rewrite K in I |- *.
    change (firstn 4 (distinct (k :: hist))) with (k :: firstn 3 (remove key_eq_dec k (distinct hist))).
    change (firstn 4 (k :: firstn 4 (distinct hist))) with (k :: firstn 3 (firstn 4 (distinct hist))).
    f_equal. rewrite firstn_firstn. change (Nat.min 3 4) with 3. symmetry. apply firstn_remove.
    intros J. apply I. destruct (distinct hist) as [|a [|b [|d [|e l]]]]; cbn in *; tauto.
Qed.
Lemma holds_calls calls : forall hist c, holds hist c ->
  holds (rev (filter (computable compute) (map fst calls)) ++ hist) (fst (grid_calls compute calls c)).
Proof.
  induction calls as [|[k t] calls IH]; intros hist c H; [exact H|]. cbn [grid_calls map filter fst].
  destruct (grid_positions compute k t c) as [c1 r] eqn:E. specialize (IH _ _ (holds_step _ _ _ _ _ _ H E)).
  destruct (grid_calls compute calls c1) as [c2 rs]. cbn [fst] in *. destruct (computable compute k); [|exact IH].
  cbn [rev]. rewrite <- app_assoc. exact IH.
Qed.
Lemma cache_keys calls : map fst (fst (grid_calls compute calls [])) = firstn 4 (last_used (filter (computable compute) (map fst calls))).
Proof.
  assert (H : holds [] ([] : cache Grid)) by (split; [reflexivity|constructor]).
  pose proof (proj1 (holds_calls calls [] [] H)) as K. rewrite app_nil_r in K. exact K.
Qed.
Lemma cache_small calls : length (fst (grid_calls compute calls [])) <= 4.
Proof. rewrite <- (map_length fst), cache_keys. apply firstn_le_length. Qed.

(** With transformations that leave their argument alone the arrays keep the grids. *)
Definition right_grids c : Prop := Forall (fun e => compute (fst e) = Ret (snd e)) c.
Lemma find_right k c g : right_grids c -> cache_find k c = Some g -> compute k = Ret g.
Proof.
  induction 1 as [|[k' g'] c H F IH]; [discriminate|]. cbn. destruct (key_eqb_spec k k') as [->|D]; [|exact IH].
  injection 1 as <-. exact H.
Qed.
Lemma cached_right n k c c' r : right_grids c -> cached compute n k c = (c', r) -> right_grids c' /\ r = compute k.
Proof.
  intros H. unfold cached. destruct (cache_find k c) as [g|] eqn:E.
  - injection 1 as <- <-. pose proof (find_right k c g H E) as G. split; [|congruence]. constructor; [exact G|].
    apply Forall_forall. intros e I. apply filter_In in I as [I _]. exact (proj1 (Forall_forall _ _) H e I).
  - destruct (compute k) as [g|e] eqn:G; injection 1 as <- <-; [|auto]. split; [|reflexivity].
    apply Forall_forall. intros e I. assert (J : In e ((k, g) :: c)) by (rewrite <- (firstn_skipn n ((k, g) :: c)); apply in_or_app; auto).
    destruct J as [<-|J]; [exact G|exact (proj1 (Forall_forall _ _) H e J)].
Qed.
Lemma positions_right k t c c' r : right_grids c -> leaves_argument t -> grid_positions compute k t c = (c', r) ->
  right_grids c' /\ r = fresh_positions compute k t.
Proof.
  intros H L. unfold grid_positions, fresh_positions. destruct (cached compute 4 k c) as [c1 r1] eqn:E.
  destruct (cached_right 4 k c c1 r1 H E) as [H1 ->]. destruct (compute k) as [g|e] eqn:G; [|injection 1 as <- <-; auto].
  destruct t as [f|]; [|injection 1 as <- <-; auto]. pose proof (L g) as Lg. destruct (f g) as [g' r2] eqn:F. cbn in Lg. subst g'.
  injection 1 as <- <-. split; [|reflexivity]. apply Forall_map. apply (Forall_impl _ (P := fun e => compute (fst e) = Ret (snd e))); [|exact H1].
  intros [k' g'] I. cbn in *. destruct (key_eqb_spec k k') as [<-|D]; cbn; [exact G|exact I].
Qed.
Lemma calls_right calls : forall c, right_grids c -> Forall (fun kt => leaves_argument (snd kt)) calls ->
  snd (grid_calls compute calls c) = map (fun kt => fresh_positions compute (fst kt) (snd kt)) calls.
Proof.
  induction calls as [|[k t] calls IH]; intros c H L; [reflexivity|]. cbn [grid_calls map fst snd]. inversion L as [|? ? L1 L2]; subst.
  destruct (grid_positions compute k t c) as [c1 r] eqn:E. destruct (positions_right k t c c1 r H L1 E) as [H1 ->].
  specialize (IH c1 H1 L2). destruct (grid_calls compute calls c1). cbn [snd] in *. rewrite IH. reflexivity.
Qed.
Lemma calls_fresh calls : Forall (fun kt => leaves_argument (snd kt)) calls ->
  snd (grid_calls compute calls []) = map (fun kt => fresh_positions compute (fst kt) (snd kt)) calls.
Proof. apply calls_right. constructor. Qed.
End P.

(** The matching of two trackers that hold the same objects in a different order.  Used for C92. *)
From Coq Require Import ZArith Bool Arith String List Lia Permutation.
From Verif Require Import Model.Num Model.Base Model.Matching Model.Filter Model.Tracker Spec.MatchingSpec Spec.CallSpec Spec.ExampleVideo Spec.LabelSpec
  Spec.OrderSpec Proofs.NumLaws Proofs.MatchingProofs Proofs.TrackerFrame Proofs.Identity Proofs.Effect Proofs.LabelSim Proofs.OrderTable.
Import ListNotations.

Section M.
Context {N : Num} (laws : NumLaws N) {FO : filter_ops N}.
Notation st := (st FO).

(** A permuted table can be matched if the table can. *)
Lemma match_reordered rnd n m thr (M M' : matrix N) s t dis ois : rnd_ok rnd -> rect n m M -> rect n m M' -> nan_free M -> nan_free M' ->
  perm_of n s -> perm_of m t -> (forall i j, i < n -> j < m -> entry M' i j = entry M (s i) (t j)) ->
  match_dets_and_objs rnd thr M = Some (dis, ois) -> exists dis' ois', match_dets_and_objs rnd thr M' = Some (dis', ois').
Proof.
  intros Hr HM HM' Hn Hn' Hs Ht He E. assert (Hr' : dis_nan (rnd (dsucc thr)) = dis_nan thr) by (rewrite Hr; apply dis_nan_succ).
  destruct (dltb (rnd (dsucc thr)) thr) eqn:F.
  - exists [], []. unfold match_dets_and_objs. eapply match_loop_none; eauto. intros i j Hi Hj Hlt. rewrite He in Hlt by assumption.
    unfold match_dets_and_objs in E. rewrite (match_loop_diverges laws _ n m _ thr M [] [] F HM Hn) in E; [discriminate|].
    exists (s i), (t j). split; [apply Hs, Hi|]. split; [apply Ht, Hj|exact Hlt].
  - destruct (match_terminates laws rnd n m thr M' HM' Hn' Hr' F) as (a & b & _ & X & _). eauto.
Qed.

Lemma combine_NoDup pairs : one_to_one pairs -> NoDup pairs.
Proof. intros [H _]. eapply NoDup_map_inv; eauto. Qed.

Lemma match_reordered_pairs rnd n m thr (M M' : matrix N) s t dis ois : rnd_ok rnd -> rect n m M -> rect n m M' -> nan_free M ->
  perm_of n s -> perm_of m t -> (forall i j, i < n -> j < m -> entry M' i j = entry M (s i) (t j)) -> no_ties n m (entry M) thr ->
  match_dets_and_objs rnd thr M = Some (dis, ois) ->
  nan_free M' /\ exists dis' ois', match_dets_and_objs rnd thr M' = Some (dis', ois') /\
    Permutation (combine dis ois) (map (fun x => (s (fst x), t (snd x))) (combine dis' ois')).
Proof.
  intros Hr HM HM' Hn Hs Ht He Hnt E. assert (Hr' : dis_nan (rnd (dsucc thr)) = dis_nan thr) by (rewrite Hr; apply dis_nan_succ).
  assert (Hn' : nan_free M').
  { apply (nan_free_entry n m M' HM'). intros i j Hi Hj. rewrite He by assumption. apply (nan_free_entry n m M HM); auto; [apply Hs, Hi|apply Ht, Hj]. }
  split; [exact Hn'|]. destruct (match_reordered rnd n m thr M M' s t dis ois Hr HM HM' Hn Hn' Hs Ht He E) as (dis' & ois' & E').
  exists dis', ois'. split; [exact E'|].
  pose proof (match_permute laws rnd n m thr M M' s t dis ois dis' ois' HM HM' Hn Hn' Hr' Hs Ht He Hnt E E') as Iff.
  destruct (match_final laws _ _ _ _ _ _ _ Hr HM Hn E) as [_ (O1 & R1 & _)]. destruct (match_final laws _ _ _ _ _ _ _ Hr HM' Hn' E') as [_ (O2 & R2 & _)].
  apply NoDup_Permutation.
  - apply combine_NoDup, O1.
  - clear - O2 R2 Hs. destruct O2 as [O2 _]. revert O2 R2. generalize (combine dis' ois') as l. induction l as [|[a b] l IH]; intros O2 R2; cbn; [constructor|].
    inversion O2 as [|? ? Hna O3]; subst. constructor.
    + intros H. apply in_map_iff in H as ([a' b'] & Eq & H). cbn in Eq. injection Eq as Ea Eb. apply Hna. cbn.
      assert (a' = a). { apply (proj1 (proj2 Hs)); [apply (R2 a' b'); right; exact H|apply (R2 a b); left; reflexivity|exact Ea]. } subst.
      apply (in_map fst) in H. exact H.
    + apply IH; [exact O3|]. intros x y H. apply R2. right. exact H.
  - intros [x y]. split.
    + intros H. destruct (R1 _ _ H) as [Hx Hy]. destruct (proj2 (proj2 Hs) x Hx) as (a & Ha & <-). destruct (proj2 (proj2 Ht) y Hy) as (b & Hb & <-).
      apply in_map_iff. exists (a, b). split; [reflexivity|]. apply Iff; assumption.
    + intros H. apply in_map_iff in H as ([a b] & Eq & H). cbn in Eq. injection Eq as <- <-. destruct (R2 _ _ H) as [Ha Hb]. apply (Iff a b Ha Hb), H.
Qed.

(** A phase computes what it computes. *)
Lemma uip_forward rnd d thr objects cands p (s : st) M pairs s1 s' out : phase rnd d thr objects cands s M pairs s1 ->
  (pairs = [] -> s' = s1 /\ out = (cands, [], objects)) ->
  (pairs <> [] -> apply_matches thr M objects cands p pairs (not_in_idxs (map fst pairs) 0 cands) [] (not_in_idxs (map snd pairs) 0 objects) s1 = (s', Ret out)) ->
  rnd_ok rnd -> update_objects_in_place rnd d thr objects cands p s = (s', Ret out).
Proof.
  intros Ph H0 H1 Hr. unfold update_objects_in_place. destruct cands as [|c0 cands0].
  - destruct (ph_empty _ _ _ _ _ _ _ _ _ Ph eq_refl) as [-> ->]. destruct (H0 eq_refl) as [-> ->]. reflexivity.
  - set (cands := c0 :: cands0) in *. assert (Hne : cands <> []) by discriminate. clearbody cands.
    rewrite (ph_matrix _ _ _ _ _ _ _ _ _ Ph Hne). rewrite (ph_nan _ _ _ _ _ _ _ _ _ Ph : existsb dis_nan (List.concat M) = false).
    destruct (ph_exact _ _ _ _ _ _ _ _ _ Ph Hne) as ((dis & ois & Em & ->) & Es). rewrite <- Es, Em.
    destruct (match_final laws _ _ _ _ _ _ _ Hr (ph_rect _ _ _ _ _ _ _ _ _ Ph Hne) (ph_nan _ _ _ _ _ _ _ _ _ Ph) Em) as [Ln _].
    rewrite combine_fst, combine_snd in H1 by exact Ln.
    destruct dis as [|a dis].
    + destruct (H0 eq_refl) as [-> ->]. reflexivity.
    + destruct ois as [|b ois]; [discriminate|]. apply H1. discriminate.
Qed.

Definition swap (f g : nat -> nat) (x : nat * nat) : nat * nat := (f (fst x), g (snd x)).

Theorem phase_reordered L rnd d thr (s t : st) obs obs' cs cs' f g p s' out : rnd_ok rnd -> pairwise d -> same_world L s t ->
  arr (pairL L) g obs obs' -> arr (cpair L) f cs cs' ->
  (forall M, get_distances rnd d s obs cs = Ret M -> no_ties (List.length M) (ncols M) (entry M) thr) ->
  update_objects_in_place rnd d thr obs cs p s = (s', Ret out) ->
  exists M pairs s1 M' pairs' t1,
    phase rnd d thr obs cs s M pairs s1 /\ phase rnd d thr obs' cs' t M' pairs' t1 /\
    Permutation pairs (map (swap f g) pairs') /\ (forall a b, In (a, b) pairs' -> entry M' a b = entry M (f a) (g b)) /\
    (pairs = [] -> s' = s1 /\ out = (cs, [], obs)) /\
    (pairs <> [] -> apply_matches thr M obs cs p pairs (not_in_idxs (map fst pairs) 0 cs) [] (not_in_idxs (map snd pairs) 0 obs) s1 = (s', Ret out)).
Proof.
  intros Hr Hd W Ro Rc Hnt E. destruct (uip_phase laws _ _ _ _ _ _ _ _ _ Hr E) as (M & pairs & s1 & Ph & H0 & H1). exists M, pairs, s1.
  destruct cs as [|c0 cs0].
  { destruct Rc as (Lc & _). destruct cs' as [|? ?]; [|discriminate]. destruct (ph_empty _ _ _ _ _ _ _ _ _ Ph eq_refl) as [-> ->].
    exists [], [], t. split; [exact Ph|]. split; [|split; [constructor|split; [intros a b []|split; assumption]]].
    constructor; try congruence; auto; [reflexivity|apply final_nil|apply min_frame_refl]. }
  set (cs := c0 :: cs0) in *. assert (Hne : cs <> []) by discriminate. clearbody cs. clear c0 cs0.
  pose proof (ph_matrix _ _ _ _ _ _ _ _ _ Ph Hne) as EM. pose proof (ph_rect _ _ _ _ _ _ _ _ _ Ph Hne) as HM.
  destruct (ordered_table L rnd d s t obs obs' cs cs' f g M Hd W Ro Rc EM) as (M' & EM' & He).
  pose proof (get_distances_rect _ _ _ _ _ _ EM') as HM'. destruct Rc as (Lc & Pf & Rc). destruct Ro as (Lo & Pg & Ro).
  assert (Hne' : cs' <> []) by (intros ->; cbn in Lc; destruct cs; [congruence|discriminate]).
  rewrite <- Lc, <- Lo in *. destruct (ph_exact _ _ _ _ _ _ _ _ _ Ph Hne) as ((dis & ois & Em & Ep) & Es).
  assert (Nt : no_ties (List.length cs) (List.length obs) (entry M) thr).
  { specialize (Hnt M EM). destruct HM as [HM1 HM2]. rewrite HM1 in Hnt. replace (List.length obs) with (ncols M); [exact Hnt|].
    destruct M as [|r M]; [destruct cs; [congruence|discriminate]|]. inversion HM2; subst. cbn. assumption. }
  destruct (match_reordered_pairs rnd _ _ thr M M' f g dis ois Hr HM HM' (ph_nan _ _ _ _ _ _ _ _ _ Ph) Pf Pg He Nt Em) as (Hn' & dis' & ois' & Em' & Pm).
  exists M', (combine dis' ois'), (if existsb dtruth (List.concat M') then set_min_distances thr M' 0 obs' t else t).
  destruct (match_final laws _ _ _ _ _ _ _ Hr HM' Hn' Em') as [Ln Hf].
  split; [exact Ph|]. split; [|split; [rewrite Ep; exact Pm|split; [|split; assumption]]].
  - constructor; auto.
    + rewrite <- Lc, <- Lo. auto.
    + rewrite <- Lc, <- Lo. exact Hf.
    + destruct (existsb dtruth (List.concat M')); [apply set_min_distances_frame|apply min_frame_refl].
    + intros _. split; [exists dis', ois'; auto|reflexivity].
    + congruence.
  - intros a b H. destruct Hf as (_ & Rg & _). destruct (Rg _ _ H). apply He; assumption.
Qed.

(** Hits and merges are what [apply_matches] does. *)
Lemma nth_error_ok {A} (d : A) l k : k < List.length l -> nth_error l k = Some (nth k l d).
Proof. apply nth_error_nth'. Qed.
Lemma apply_matches_dets_forward thr M objects rs p pairs : forall uc mo uo (s s' : st),
  below (entry M) thr pairs -> in_range (List.length rs) (List.length objects) pairs ->
  hits p (map (mk_hit M objects rs) pairs) s s' ->
  apply_matches thr M objects (map CDet rs) p pairs uc mo uo s = (s', Ret (uc, mo ++ map (fun q => nth (snd q) objects 0) pairs, uo)).
Proof.
  induction pairs as [|[ci oi] pairs IH]; intros uc mo uo s s' Hb Hg H; cbn in H |- *.
  - inversion H; subst. rewrite app_nil_r. reflexivity.
  - destruct (Hg ci oi (or_introl eq_refl)) as [H1 H2]. rewrite nth_error_map, (nth_error_ok 0 rs ci H1), (nth_error_ok 0 objects oi H2).
    rewrite (Hb ci oi (or_introl eq_refl)). cbn. unfold mk_hit at 1 in H. cbn in H. inversion H; subst.
    match goal with X : hit _ _ _ _ = _ |- _ => rewrite X end.
    rewrite (IH uc (mo ++ [nth oi objects 0]) uo _ s'); [|intros a b Hab; apply Hb; right; exact Hab|intros a b Hab; apply Hg; right; exact Hab|assumption].
    rewrite <- app_assoc. reflexivity.
Qed.
Lemma apply_matches_objs_forward thr M objects js p pairs : forall uc mo uo (s s' : st),
  below (entry M) thr pairs -> in_range (List.length js) (List.length objects) pairs ->
  merges (map (mk_hit M objects js) pairs) s s' ->
  apply_matches thr M objects (map CObj js) p pairs uc mo uo s = (s', Ret (uc, mo, uo)).
Proof.
  induction pairs as [|[ci oi] pairs IH]; intros uc mo uo s s' Hb Hg H; cbn in H |- *.
  - inversion H; subst. reflexivity.
  - destruct (Hg ci oi (or_introl eq_refl)) as [H1 H2]. rewrite nth_error_map, (nth_error_ok 0 js ci H1), (nth_error_ok 0 objects oi H2).
    rewrite (Hb ci oi (or_introl eq_refl)). cbn. unfold mk_hit at 1 in H. cbn in H. inversion H; subst.
    match goal with X : merge _ _ _ = _ |- _ => rewrite X end. match goal with X : In _ (s_tracked ?a) |- _ => replace (existsb _ (s_tracked a)) with true by (symmetry; apply existsb_exists; eexists; split; [exact X|apply Nat.eqb_refl]) end.
    apply IH; [intros a b Hab; apply Hb; right; exact Hab|intros a b Hab; apply Hg; right; exact Hab|assumption].
Qed.
End M.

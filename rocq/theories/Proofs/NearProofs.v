(** C106: near tables decide the matching in the same way. *)
From Coq Require Import ZArith QArith Reals Lra Lqa Bool Arith List Lia.
From Verif Require Import Model.Num Model.Base Model.Matching Model.Filter Model.Tracker Spec.MatchingSpec Spec.CallSpec Spec.ExampleVideo Spec.LabelSpec Spec.UnitSpec
  Spec.OrderSpec Spec.NearSpec Proofs.NumLaws Proofs.MatchingProofs Proofs.GreedyProofs Proofs.GreedySub Proofs.NearSim.
Import ListNotations.
Local Open Scope nat_scope.

Section P.
Context {N : Num} (laws : NumLaws N).

Lemma greedy_alike (d d' : nat -> nat -> dval N) thr rows cols P : dis_nan thr = false ->
  (forall i j, In i rows -> In j cols -> dis_nan (d i j) = false /\ dis_nan (d' i j) = false) ->
  (forall i j, In i rows -> In j cols -> (dlt (d' i j) thr <-> dlt (d i j) thr)) ->
  (forall i j i' j', In i rows -> In j cols -> In i' rows -> In j' cols -> (i, j) <> (i', j') -> dlt (d i j) thr -> dlt (d i' j') thr ->
     (dlt (d' i j) (d' i' j') <-> dlt (d i j) (d i' j'))) ->
  greedy d thr rows cols P -> greedy d' thr rows cols P.
Proof.
  intros Ht HN HT HO G. induction G as [rows cols Hno|rows cols i j P Hi Hj Hlt Hmin G IH].
  - constructor. intros i j Hi Hj H. apply (Hno i j Hi Hj), HT; auto.
  - constructor; auto.
    + apply HT; auto.
    + intros i' j' Hi' Hj'. destruct (Hmin i' j' Hi' Hj') as [A B]. destruct (HN i j Hi Hj) as [N1 N2]. destruct (HN i' j' Hi' Hj') as [N3 N4].
      assert (Hne : (i, j) = (i', j') \/ (i, j) <> (i', j')) by (destruct (Nat.eq_dec i i'), (Nat.eq_dec j j'); [left; congruence|right; congruence..]).
      destruct Hne as [Hne|Hne].
      { injection Hne as <- <-. split; [unfold dle; apply (dltb_irrefl laws)|]. intros X. exfalso. unfold before in X. cbn in X. lia. }
      destruct (dltb (d i' j') thr) eqn:L.
      * split.
        -- unfold dle. destruct (dltb (d' i' j') (d' i j)) eqn:Y; [|reflexivity]. exfalso. apply HO in Y; auto. unfold dle, dlt in *. congruence.
        -- intros X. apply HO; auto.
      * assert (L' : dltb (d' i' j') thr = false).
        { destruct (dltb (d' i' j') thr) eqn:Y; [|reflexivity]. apply HT in Y; auto. unfold dlt in Y. congruence. }
        assert (Z : dltb (d' i j) (d' i' j') = true) by (apply (dlt_le_trans laws) with (y := thr); auto; apply HT; auto).
        split; [apply (dltb_asym laws), Z|intros _; exact Z].
    + apply IH; intros; repeat match goal with H : In _ (remove _ _ _) |- _ => apply in_remove in H as [H _] end; auto.
Qed.

Lemma match_alike rnd rnd' n m thr (M M' : matrix N) res : can_stop rnd thr -> can_stop rnd' thr -> rect n m M -> rect n m M' -> nan_free M -> nan_free M' ->
  (forall i j, i < n -> j < m -> (dlt (entry M' i j) thr <-> dlt (entry M i j) thr)) ->
  (forall i j i' j', i < n -> j < m -> i' < n -> j' < m -> (i, j) <> (i', j') -> dlt (entry M i j) thr -> dlt (entry M i' j') thr ->
     (dlt (entry M' i j) (entry M' i' j') <-> dlt (entry M i j) (entry M i' j'))) ->
  match_dets_and_objs rnd thr M = Some res -> match_dets_and_objs rnd' thr M' = Some res.
Proof.
  intros [S1 S2] [S1' S2'] Rc Rc' F F' HT HO E. destruct res as [cis ois].
  destruct (dis_nan thr) eqn:Ht.
  - assert (Z : forall r (K : matrix N), rect n m K -> nan_free K -> match_dets_and_objs r thr K = Some ([], [])).
    { intros r K RK FK. unfold match_dets_and_objs. apply (match_loop_none laws _ n m); auto. intros i j _ _ Hl. destruct thr; try discriminate. unfold dlt in Hl. destruct (entry K i j); discriminate. }
    rewrite Z in E by auto. rewrite Z by auto. exact E.
  - rewrite <- Ht in S1, S1'.
    destruct (match_exists laws rnd' n m thr M' Rc' F' S1' (or_introl S2')) as (cis' & ois' & E').
    destruct (match_correct laws rnd n m thr M cis ois Rc F S1 E) as (L & _).
    destruct (match_correct laws rnd' n m thr M' cis' ois' Rc' F' S1' E') as (L' & _).
    pose proof (match_greedy laws rnd n m thr M cis ois Rc F S1 E) as G.
    pose proof (match_greedy laws rnd' n m thr M' cis' ois' Rc' F' S1' E') as G'.
    assert (G2 : greedy (entry M') thr (seq 0 n) (seq 0 m) (combine cis ois)).
    { apply (greedy_alike (entry M)); auto; intros; repeat match goal with H : In _ (seq _ _) |- _ => apply in_seq in H end.
      - split; [apply (nan_free_entry n m)|apply (nan_free_entry n m)]; auto; lia.
      - apply HT; lia.
      - apply HO; auto; lia. }
    pose proof (greedy_unique _ _ _ _ _ G2 _ G') as X. rewrite E'. f_equal.
    rewrite <- (combine_split cis' ois' L'), <- (combine_split cis ois L), X. reflexivity.
Qed.
End P.

Section Tracking.
Context {N : Num} (laws : NumLaws N) {FO FO' : filter_ops N}.
Lemma ncols_rect n m (M : matrix N) : rect n m M -> n <> 0 -> ncols M = m.
Proof. intros [L F] Hn. destruct M as [|r M]; [cbn in L; lia|]. inversion F; subst; auto. Qed.
Lemma mnear_entry (near : dval N -> dval N -> Prop) n m M M' i j : mnear near M M' -> rect n m M -> i < n -> j < m -> near (entry M i j) (entry M' i j).
Proof.
  intros H [L F]. unfold entry. rewrite <- L. clear L. revert i. induction H as [|r r' M M' Hr HM IH]; intros [|i] Hi Hj; cbn in *; try lia; inversion F; subst; [|apply IH; auto; lia].
  clear - Hr Hj. revert j Hj. induction Hr as [|x y r r' Hxy Hr IH]; intros [|j] Hj; cbn in *; try lia; auto. apply IH. lia.
Qed.
Lemma decisive_match (near : dval N -> dval N -> Prop) : (forall x y, near x y -> dis_nan x = false -> dis_nan y = false) ->
  forall rnd rnd' n m thr M M' res, can_stop rnd thr -> can_stop rnd' thr -> rect n m M -> nan_free M -> decisive near thr M -> mnear near M M' ->
  match_dets_and_objs rnd thr M = Some res -> match_dets_and_objs rnd' thr M' = Some res.
Proof.
  intros Nn rnd rnd' n m thr M M' res S S' Rc F [D1 D2] HM.
  assert (C : forall i j, i < n -> j < m -> i < length M /\ j < ncols M).
  { intros i j Hi Hj. pose proof (ncols_rect n m M Rc ltac:(lia)). destruct Rc as [L _]. rewrite L. lia. }
  apply (match_alike laws rnd rnd' n m); auto.
  - apply (mnear_rect near n m M M'); auto.
  - apply (mnear_nan near Nn M M'); auto.
  - intros i j Hi Hj. apply D1; auto. eapply mnear_entry; eauto.
  - intros i j i' j' Hi Hj Hi' Hj' Hne L L'. apply D2; auto; eapply mnear_entry; eauto.
Qed.
Theorem tracking_decisive (near : dval N -> dval N -> Prop) (R : fstate FO -> fstate FO' -> Prop) (c : tconf FO) (c' : tconf FO') ins h g dummy dummy' fa :
  near DPInf DPInf -> (forall x y, near x y -> dis_nan x = false -> dis_nan y = false) -> filters_follow R -> nearly_alike near R c c' ->
  play c (new_tracker h g dummy) ins = Some fa -> (forall f, In f fa -> each_table (decisive near) c f) ->
  exists fb, play c' (new_tracker h g dummy') ins = Some fb /\ Forall2 (same_frame near R) fa fb.
Proof.
  intros Ni Nn HF Hc P HD.
  exact (tracking_near laws near R Ni Nn HF (decisive near) (decisive_match near Nn) c c' Hc ins h g dummy dummy' fa P HD).
Qed.

(** Equal numbers. *)
Lemma decisive_eq thr (M : matrix N) : decisive eq thr M.
Proof. split; intros; subst; reflexivity. Qed.
Theorem tracking_equal (R : fstate FO -> fstate FO' -> Prop) (c : tconf FO) (c' : tconf FO') ins h g dummy dummy' fa :
  filters_follow R -> nearly_alike eq R c c' -> play c (new_tracker h g dummy) ins = Some fa ->
  exists fb, play c' (new_tracker h g dummy') ins = Some fb /\ Forall2 (same_frame eq R) fa fb.
Proof.
  intros HF Hc P. apply (tracking_decisive eq R c c' ins h g dummy dummy' fa); auto; [congruence|]. intros f _ thr M _. apply decisive_eq.
Qed.

(** Errors up to [eps], for numbers in which addition is what it should be. *)
Section Errors.
Variable eps : N.
Hypothesis add_below : forall a b t : N, nltb (b + eps)%n a = false -> nltb (a + eps)%n b = false -> nltb (a + eps)%n t = true -> nltb a t = true /\ nltb b t = true.
Hypothesis add_above : forall a b t : N, nltb (b + eps)%n a = false -> nltb (a + eps)%n b = false -> nltb (t + eps)%n a = true -> nltb t a = true /\ nltb t b = true.
Hypothesis add_apart : forall a b a' b' : N, nltb (b + eps)%n a = false -> nltb (a + eps)%n b = false -> nltb (b' + eps)%n a' = false -> nltb (a' + eps)%n b' = false ->
  nltb (a + (eps + eps))%n a' = true -> nltb a a' = true /\ nltb b b' = true.
Lemma within_thr x y t : within eps x y -> apart eps x t -> (dlt y t <-> dlt x t).
Proof.
  unfold within, apart, dlt. destruct x as [| |a|], y as [| |b|]; try congruence; try (intros ->; reflexivity); try (intros _ _; reflexivity).
  destruct t as [| |t|]; cbn; try reflexivity. intros [A B]. apply not_true_is_false in A, B. intros [H|H].
  - destruct (add_below a b t A B H) as [-> ->]. reflexivity.
  - destruct (add_above a b t A B H) as [X Y]. assert (Z : forall u v : N, nltb u v = true -> nltb v u = false).
    { intros u v E. exact (dltb_asym laws (DFin u) (DFin v) E). }
    rewrite (Z _ _ X), (Z _ _ Y). reflexivity.
Qed.
Lemma within_order x y x' y' : within eps x y -> within eps x' y' -> apart (eps + eps)%n x x' -> (dlt y y' <-> dlt x x').
Proof.
  unfold within, apart, dlt. destruct x as [| |a|], y as [| |b|]; try congruence; destruct x' as [| |a'|], y' as [| |b'|]; try congruence; try (cbn; tauto).
  cbn. intros [A B] [A' B']. apply not_true_is_false in A, B, A', B'. intros [H|H].
  - destruct (add_apart a b a' b' A B A' B' H) as [-> ->]. reflexivity.
  - destruct (add_apart a' b' a b A' B' A B H) as [X Y]. assert (Z : forall u v : N, nltb u v = true -> nltb v u = false).
    { intros u v E. exact (dltb_asym laws (DFin u) (DFin v) E). }
    rewrite (Z _ _ X), (Z _ _ Y). reflexivity.
Qed.
Lemma clear_decisive thr M : clear eps thr M -> decisive (within eps) thr M.
Proof.
  intros [A B]. split.
  - intros i j x H W. apply within_thr; auto.
  - intros i j i' j' x x' H H' Hne L L' W W'. apply within_order; auto.
Qed.
Theorem tracking_within (R : fstate FO -> fstate FO' -> Prop) (c : tconf FO) (c' : tconf FO') ins h g dummy dummy' fa :
  filters_follow R -> nearly_alike (within eps) R c c' ->
  play c (new_tracker h g dummy) ins = Some fa -> (forall f, In f fa -> each_table (clear eps) c f) ->
  exists fb, play c' (new_tracker h g dummy') ins = Some fb /\ Forall2 (same_frame (within eps) R) fa fb.
Proof.
  intros HF Hc P HD. apply (tracking_decisive (within eps) R c c' ins h g dummy dummy' fa); auto; [reflexivity| |].
  - intros x y. destruct x, y; cbn; congruence || auto.
  - intros f Hf thr M H. apply clear_decisive, (HD f Hf thr M H).
Qed.
End Errors.
End Tracking.

Theorem tracking_errors_R {FO FO' : filter_ops RNum} (eps : R) (R : fstate FO -> fstate FO' -> Prop) (c : tconf FO) (c' : tconf FO') ins h g dummy dummy' fa :
  filters_follow R -> nearly_alike (within (eps : RNum)) R c c' ->
  play c (new_tracker h g dummy) ins = Some fa -> (forall f, In f fa -> each_table (clear (eps : RNum)) c f) ->
  exists fb, play c' (new_tracker h g dummy') ins = Some fb /\ Forall2 (same_frame (within (eps : RNum)) R) fa fb.
Proof.
  apply (tracking_within RNum_laws (eps : RNum)); cbn; intros *; rewrite ?Rltb_ge, ?Rltb_lt; intros; Lra.lra.
Qed.
Theorem tracking_errors_Q {FO FO' : filter_ops QNum} (eps : Q) (R : fstate FO -> fstate FO' -> Prop) (c : tconf FO) (c' : tconf FO') ins h g dummy dummy' fa :
  filters_follow R -> nearly_alike (within (eps : QNum)) R c c' ->
  play c (new_tracker h g dummy) ins = Some fa -> (forall f, In f fa -> each_table (clear (eps : QNum)) c f) ->
  exists fb, play c' (new_tracker h g dummy') ins = Some fb /\ Forall2 (same_frame (within (eps : QNum)) R) fa fb.
Proof.
  apply (tracking_within QNum_laws (eps : QNum)); cbn [nltb nadd QNum]; intros *; rewrite ?Qltb_ge, ?Qltb_lt; intros;
    repeat match goal with H : context [Qred ?x] |- _ => rewrite (Qred_correct x) in H end; split; Lqa.lra.
Qed.

(** Distances kept in another format. *)
Theorem tracking_stored {N : Num} (laws : NumLaws N) {FO : filter_ops N} (rnd : dval N -> dval N) (c : tconf FO) f ins h g dummy dummy' fa :
  tc_rnd c = (fun d => d) -> tc_distance c = ScalarDistance f -> tc_reid_distance c = None -> same_values (fun x y => y = rnd x) f ->
  rnd DPInf = DPInf -> (forall x, dis_nan x = false -> dis_nan (rnd x) = false) ->
  can_stop (fun d => d) (tc_threshold c) -> can_stop rnd (tc_threshold c) ->
  play c (new_tracker h g dummy) ins = Some fa -> (forall fr, In fr fa -> each_table (order_kept rnd) c fr) ->
  exists fb, play (with_rnd c rnd) (new_tracker h g dummy') ins = Some fb /\ Forall2 (same_frame (fun x y => y = rnd x) eq) fa fb.
Proof.
  intros Er Ed Ere Hf Hi Hn S1 S2 P HD. apply (tracking_decisive laws (fun x y => y = rnd x) eq c (with_rnd c rnd) ins h g dummy dummy' fa); auto.
  - intros x y ->. auto.
  - split; intros; subst; reflexivity.
  - destruct c as [td tt thm tdl tpw tdt tpl trd trt trm tr]. cbn in *. subst td trd tr. split; cbn; auto.
    + intros c c' o o' d Hc Ho E. exists d. rewrite (Hf c c' o o' Hc Ho). auto.
    + split; auto. split; auto. intros X. elim X. reflexivity.
    + repeat split.
  - intros fr Hfr thr M HM. destruct (HD fr Hfr thr M HM) as [A B]. split.
    + intros i j x C ->. apply A, C.
    + intros i j i' j' x x' C C' Hne L L' -> ->. apply B; auto.
Qed.

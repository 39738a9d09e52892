(** Lemmas about [match_dets_and_objs]. *)
From Coq Require Import ZArith Bool List Arith Lia.
From Verif Require Import Model.Num Model.Matching Spec.MatchingSpec Proofs.NumLaws.
Import ListNotations.

Section P.
Context {N : Num} (L : NumLaws N).
Notation dv := (dval N).

(* ---- lists ---- *)
Lemma set_nth_length {A} i (v : A) l : length (set_nth i v l) = length l.
Proof. revert i; induction l; destruct i; cbn; auto. Qed.
Lemma nth_set_nth {A} i j (v d : A) l :
  nth j (set_nth i v l) d = if (Nat.eqb j i && Nat.ltb j (length l))%bool then v else nth j l d.
Proof.
  revert i j; induction l; intros i j; cbn.
  - destruct i, j; cbn; rewrite ?andb_false_r; reflexivity.
  - destruct i, j; cbn; auto. rewrite IHl. reflexivity.
Qed.
Lemma nth_error_set_nth {A} i j (v : A) l :
  nth_error (set_nth i v l) j = if (Nat.eqb j i && Nat.ltb j (length l))%bool then Some v else nth_error l j.
Proof.
  revert i j; induction l; intros i j; cbn.
  - destruct i, j; cbn; rewrite ?andb_false_r; reflexivity.
  - destruct i, j; cbn; auto. rewrite IHl. reflexivity.
Qed.

Lemma rect_row {A} n m (M : list (list A)) i : rect n m M -> i < n -> length (nth i M []) = m.
Proof.
  intros [H1 H2] Hi. rewrite Forall_forall in H2. apply H2. apply nth_In. lia.
Qed.

Lemma rect_ncols n m (M : matrix N) : rect n m M -> 0 < n -> ncols M = m.
Proof.
  intros [H1 H2] Hn. destruct M; cbn in *; [lia|]. inversion H2; auto.
Qed.

Lemma rect_concat_length {A} n m (M : list (list A)) : rect n m M -> length (concat M) = n * m.
Proof.
  intros [H1 H2]; subst n. induction H2; cbn; auto. rewrite app_length, IHForall. lia.
Qed.

Lemma rect_set_nth n m (M : matrix N) i r : rect n m M -> length r = m -> rect n m (set_nth i r M).
Proof.
  intros [H1 H2] Hr. split; [rewrite set_nth_length; auto|].
  revert i; clear H1; induction H2; destruct i; cbn; constructor; auto.
Qed.

Lemma rect_fill_row n m (M : matrix N) i v : rect n m M -> i < n -> rect n m (fill_row i v M).
Proof.
  intros H Hi. apply rect_set_nth; auto. rewrite map_length. eapply rect_row; eauto.
Qed.
Lemma rect_fill_col n m (M : matrix N) j v : rect n m M -> rect n m (fill_col j v M).
Proof.
  intros [H1 H2]. unfold fill_col. split; [rewrite map_length; auto|].
  apply Forall_map. eapply Forall_impl; [|exact H2]. cbn. intros r Hr. rewrite set_nth_length. auto.
Qed.

Lemma entry_fill_row n m (M : matrix N) i v a b : rect n m M -> i < n -> a < n -> b < m ->
  entry (fill_row i v M) a b = if Nat.eqb a i then v else entry M a b.
Proof.
  intros H Hi Ha Hb. unfold entry, fill_row. rewrite nth_set_nth.
  destruct H as [H1 H2] eqn:E. rewrite H1.
  replace (Nat.ltb a n) with true by (symmetry; apply Nat.ltb_lt; auto).
  rewrite andb_true_r. destruct (Nat.eqb_spec a i); [|reflexivity]. subst a.
  assert (Hlen : b < length (nth i M [])) by (erewrite rect_row; eauto).
  clear -Hlen. revert b Hlen. induction (nth i M []); cbn; [lia|]. intros [|b] Hb; auto. apply IHl. lia.
Qed.
Lemma entry_fill_col n m (M : matrix N) j v a b : rect n m M -> a < n -> b < m ->
  entry (fill_col j v M) a b = if Nat.eqb b j then v else entry M a b.
Proof.
  intros H Ha Hb. unfold entry, fill_col.
  change (@nil dv) with (set_nth j v (@nil dv)) at 1. rewrite map_nth.
  rewrite nth_set_nth. erewrite rect_row; eauto.
  replace (Nat.ltb b m) with true by (symmetry; apply Nat.ltb_lt; auto).
  rewrite andb_true_r. reflexivity.
Qed.

Lemma nth_concat n m (M : matrix N) k : rect n m M -> k < n * m ->
  nth k (concat M) DNaN = entry M (k / m) (k mod m) /\ k / m < n /\ k mod m < m.
Proof.
  intros [H1 H2] Hk. subst n.
  assert (Hm : m <> 0) by lia.
  split; [|split; [apply Nat.div_lt_upper_bound; lia|apply Nat.mod_upper_bound; auto]].
  revert k Hk. induction H2 as [|r M Hr HM IH]; cbn [length]; intros k Hk; [lia|].
  unfold entry. cbn [concat]. destruct (lt_dec k m).
  - rewrite app_nth1 by lia. rewrite Nat.div_small, Nat.mod_small by lia. reflexivity.
  - rewrite app_nth2 by lia. rewrite Hr.
    rewrite IH by lia. unfold entry.
    replace k with ((k - m) + 1 * m) at 3 4 by lia.
    rewrite Nat.div_add, Nat.mod_add by auto. rewrite Nat.add_1_r. reflexivity.
Qed.

Lemma entry_in_concat n m (M : matrix N) i j : rect n m M -> i < n -> j < m -> In (entry M i j) (concat M).
Proof.
  intros [H1 H2] Hi Hj. apply in_concat. exists (nth i M []). split.
  - apply nth_In. lia.
  - unfold entry. apply nth_In. erewrite rect_row; eauto. split; eauto.
Qed.
Lemma in_concat_entry n m (M : matrix N) x : rect n m M -> In x (concat M) ->
  exists i j, i < n /\ j < m /\ x = entry M i j.
Proof.
  intros H Hx. destruct (In_nth _ _ DNaN Hx) as (k & Hk & E).
  rewrite (rect_concat_length n m M H) in Hk.
  destruct (nth_concat n m M k H Hk) as (E' & A & B).
  exists (k / m), (k mod m). rewrite <- E', E. auto.
Qed.

Lemma nan_free_entry n m (M : matrix N) : rect n m M ->
  (nan_free M <-> forall i j, i < n -> j < m -> dis_nan (entry M i j) = false).
Proof.
  intros H. unfold nan_free. split.
  - intros E i j Hi Hj. destruct (dis_nan (entry M i j)) eqn:X; auto.
    assert (existsb dis_nan (concat M) = true); [|congruence].
    apply existsb_exists. eexists. split; [|exact X]. eapply entry_in_concat; eauto.
  - intros E. destruct (existsb dis_nan (concat M)) eqn:X; auto.
    apply existsb_exists in X as (x & Hx & X).
    destruct (in_concat_entry _ _ _ _ H Hx) as (i & j & Hi & Hj & ->).
    rewrite E in X; auto.
Qed.

(* ---- minimum ---- *)
Lemma list_min_spec l : forall x : dv,
  dis_nan x = false -> Forall (fun y => dis_nan y = false) l ->
  let mn := list_min x l in
  In mn (x :: l) /\ dis_nan mn = false /\ forall y, In y (x :: l) -> dltb y mn = false.
Proof.
  induction l as [|y l IH]; intros x Hx Hl mn.
  - cbn. split; [auto|split; auto]. intros y [->|[]]. apply dltb_irrefl; auto.
  - inversion Hl as [|? ? Hy Hl']; subst.
    assert (Hd : dis_nan (dmin x y) = false) by (unfold dmin; destruct (dltb y x); auto).
    specialize (IH (dmin x y) Hd Hl'). cbn in mn. fold mn in IH.
    destruct IH as (I1 & I2 & I3). repeat split; auto.
    + cbn in I1 |- *. destruct I1 as [E|I]; [|auto].
      unfold dmin in E. destruct (dltb y x); auto.
    + intros z Hz. pose proof (I3 (dmin x y) (or_introl eq_refl)) as Hdm.
      unfold dmin in Hdm, Hd. destruct (dltb y x) eqn:E.
      * destruct Hz as [<-|[<-|Hz]]; auto; [|apply I3; right; auto].
        eapply dle_trans with (y := y); eauto. apply dltb_asym; auto.
      * destruct Hz as [<-|[<-|Hz]]; auto; [|apply I3; right; auto].
        eapply dle_trans with (y := x); eauto.
Qed.

Lemma argmin_from_spec l : forall (best : dv) bi pre,
  nth bi pre DNaN = best -> bi < length pre ->
  let k := argmin_from best bi (length pre) l in
  k < length (pre ++ l) /\ nth k (pre ++ l) DNaN = list_min best l.
Proof.
  induction l as [|y l IH]; intros best bi pre Hb Hbi; cbn.
  - rewrite app_nil_r. auto.
  - specialize (IH (dmin best y)). unfold dmin in *.
    replace (pre ++ y :: l) with ((pre ++ [y]) ++ l) by (rewrite <- app_assoc; reflexivity).
    replace (S (length pre)) with (length (pre ++ [y])) by (rewrite app_length; cbn; lia).
    destruct (dltb y best).
    + apply IH; [rewrite app_nth2, Nat.sub_diag by lia; reflexivity|rewrite app_length; cbn; lia].
    + apply IH; [rewrite app_nth1 by lia; auto|rewrite app_length; cbn; lia].
Qed.
Lemma argmin_spec (x : dv) l : argmin (x :: l) < length (x :: l)
  /\ nth (argmin (x :: l)) (x :: l) DNaN = list_min x l.
Proof. apply (argmin_from_spec l x 0 [x]); cbn; auto. Qed.

(** One round: what the current minimum is. *)
Lemma round_spec n m (M : matrix N) x rest : rect n m M -> nan_free M -> concat M = x :: rest ->
  let k := argmin (concat M) in
  let i := k / ncols M in let j := k mod ncols M in
  i < n /\ j < m /\ list_min x rest = entry M i j /\
  forall a b, a < n -> b < m -> dle (entry M i j) (entry M a b).
Proof.
  intros H Hn E k i j.
  pose proof (rect_concat_length n m M H) as Hlen.
  assert (Hpos : 0 < n * m) by (rewrite <- Hlen, E; cbn; lia).
  assert (Hn0 : 0 < n) by lia.
  subst i j. rewrite (rect_ncols n m M H Hn0).
  subst k. rewrite E. destruct (argmin_spec x rest) as [A B].
  rewrite <- E in *. rewrite Hlen in A.
  destruct (nth_concat n m M (argmin (concat M)) H A) as (E' & Hi & Hj).
  rewrite B in E'. repeat split; auto.
  intros a b Ha Hb. rewrite <- E'.
  assert (F : Forall (fun y => dis_nan y = false) (x :: rest)).
  { rewrite <- E. apply Forall_forall. intros y Hy. unfold nan_free in Hn.
    destruct (dis_nan y) eqn:D; auto.
    assert (existsb dis_nan (concat M) = true) by (apply existsb_exists; eauto). congruence. }
  inversion F; subst.
  destruct (list_min_spec rest x) as (_ & _ & Q); auto.
  unfold dle. apply Q. rewrite <- E. eapply entry_in_concat; eauto.
Qed.

(* ---- the loop ---- *)
Definition used_row (P : list (nat * nat)) i := existsb (fun p => Nat.eqb i (fst p)) P.
Definition used_col (P : list (nat * nat)) j := existsb (fun p => Nat.eqb j (snd p)) P.
Lemma used_row_iff P i : used_row P i = true <-> exists j, In (i, j) P.
Proof.
  unfold used_row. rewrite existsb_exists. split.
  - intros ([a b] & H & E). apply Nat.eqb_eq in E. cbn in E; subst. eauto.
  - intros (j & H). exists (i, j). split; auto. apply Nat.eqb_refl.
Qed.
Lemma used_col_iff P j : used_col P j = true <-> exists i, In (i, j) P.
Proof.
  unfold used_col. rewrite existsb_exists. split.
  - intros ([a b] & H & E). apply Nat.eqb_eq in E. cbn in E; subst. eauto.
  - intros (i & H). exists (i, j). split; auto. apply Nat.eqb_refl.
Qed.

Record inv (n m : nat) (fill thr : dv) (M0 M : matrix N) (P : list (nat * nat)) : Prop := {
  inv_rect : rect n m M;
  inv_entry : forall i j, i < n -> j < m ->
    entry M i j = if (used_row P i || used_col P j)%bool then fill else entry M0 i j;
  inv_fst : NoDup (map fst P);
  inv_snd : NoDup (map snd P);
  inv_range : in_range n m P;
  inv_below : below (entry M0) thr P;
  inv_sorted : nondecreasing (entry M0) P;
  inv_last : forall p i j, In p P -> i < n -> j < m -> used_row P i = false -> used_col P j = false ->
     dle (entry M0 (fst p) (snd p)) (entry M0 i j);
  inv_stable : forall i j, i < n -> j < m -> (used_row P i || used_col P j)%bool = true ->
     In (i, j) P
    \/ (exists j', In (i, j') P /\ dle (entry M0 i j') (entry M0 i j))
    \/ (exists i', In (i', j) P /\ dle (entry M0 i' j) (entry M0 i j))
}.

Lemma nondecreasing_snoc d (P : list (nat * nat)) q : nondecreasing d P ->
  (forall p, In p P -> dle (d (fst p) (snd p)) (d (fst q) (snd q))) -> @nondecreasing N d (P ++ [q]).
Proof.
  induction P as [|p P IH]; cbn; intros H Hq.
  - split; [intros ? []|exact I].
  - destruct H as [H1 H2]. split.
    + intros r Hr. apply in_app_iff in Hr as [Hr|[<-|[]]]; auto.
    + apply IH; auto.
Qed.

Lemma NoDup_snoc {A} (l : list A) x : NoDup l -> ~ In x l -> NoDup (l ++ [x]).
Proof.
  intros H1 H2. apply NoDup_rev in H1. rewrite <- (rev_involutive (l ++ [x])). apply NoDup_rev.
  rewrite rev_app_distr. cbn. constructor; auto. rewrite <- in_rev. auto.
Qed.

Lemma inv_step n m fill thr M0 M P i j :
  nan_free M0 -> rect n m M0 -> dis_nan fill = false ->
  dltb fill thr = false ->
  inv n m fill thr M0 M P ->
  i < n -> j < m -> dlt (entry M i j) thr ->
  (forall a b, a < n -> b < m -> dle (entry M i j) (entry M a b)) ->
  inv n m fill thr M0 (fill_col j fill (fill_row i fill M)) (P ++ [(i, j)])
  /\ ~ In i (map fst P) /\ ~ In j (map snd P).
Proof.
  intros Hnan HM0 Hfn Hfill HI Hi Hj Hlt Hmin.
  destruct HI as [Hrect Hent Hf Hs Hrg Hbl Hso Hla Hst].
  assert (Hu : (used_row P i || used_col P j)%bool = false).
  { destruct (used_row P i || used_col P j)%bool eqn:E; auto.
    unfold dlt in Hlt. rewrite Hent, E in Hlt by auto. congruence. }
  apply orb_false_iff in Hu as Hu'. destruct Hu' as [Hur Huc].
  assert (Eij : entry M i j = entry M0 i j) by (rewrite Hent, Hu; auto).
  assert (Hni : ~ In i (map fst P)).
  { intros C. apply in_map_iff in C as ([a b] & E & C). cbn in E; subst.
    assert (used_row P i = true) by (apply used_row_iff; eauto). congruence. }
  assert (Hnj : ~ In j (map snd P)).
  { intros C. apply in_map_iff in C as ([a b] & E & C). cbn in E; subst.
    assert (used_col P j = true) by (apply used_col_iff; eauto). congruence. }
  split; [|split; auto].
  assert (Hrow : forall a, used_row (P ++ [(i, j)]) a = (used_row P a || Nat.eqb a i)%bool).
  { intros a. unfold used_row. rewrite existsb_app. cbn. rewrite orb_false_r. reflexivity. }
  assert (Hcol : forall b, used_col (P ++ [(i, j)]) b = (used_col P b || Nat.eqb b j)%bool).
  { intros b. unfold used_col. rewrite existsb_app. cbn. rewrite orb_false_r. reflexivity. }
  pose proof (proj1 (nan_free_entry n m M0 HM0) Hnan) as Hnf.
  assert (Hnew : forall a b, a < n -> b < m -> used_row P a = false -> used_col P b = false ->
             dle (entry M0 i j) (entry M0 a b)).
  { intros a b Ha Hb A B. pose proof (Hmin a b Ha Hb) as Q. rewrite Eij, (Hent a b), A, B in Q by auto.
    exact Q. }
  constructor.
  - apply rect_fill_col. apply rect_fill_row; auto.
  - intros a b Ha Hb. erewrite entry_fill_col; eauto; [|apply rect_fill_row; eauto].
    erewrite entry_fill_row; eauto. rewrite Hent by auto. rewrite Hrow, Hcol.
    destruct (Nat.eqb a i), (Nat.eqb b j), (used_row P a), (used_col P b); reflexivity.
  - rewrite map_app. apply NoDup_snoc; auto.
  - rewrite map_app. apply NoDup_snoc; auto.
  - intros a b Hab. apply in_app_iff in Hab as [Hab|[E|[]]]; [apply Hrg; auto|].
    injection E as <- <-. auto.
  - intros a b Hab. apply in_app_iff in Hab as [Hab|[E|[]]]; [apply Hbl; auto|].
    injection E as <- <-. rewrite <- Eij. auto.
  - apply nondecreasing_snoc; auto.
  - intros p a b Hp Ha Hb A B. rewrite Hrow in A. rewrite Hcol in B.
    apply orb_false_iff in A as [A _]. apply orb_false_iff in B as [B _].
    apply in_app_iff in Hp as [Hp|[<-|[]]]; [apply Hla; auto|]. apply Hnew; auto.
  - intros a b Ha Hb E. rewrite Hrow, Hcol in E.
    destruct (used_row P a || used_col P b)%bool eqn:E0.
    + destruct (Hst a b Ha Hb E0) as [X|[(j' & X & Y)|(i' & X & Y)]].
      * left. apply in_app_iff; auto.
      * right; left. exists j'. split; auto. apply in_app_iff; auto.
      * right; right. exists i'. split; auto. apply in_app_iff; auto.
    + apply orb_false_iff in E0 as [A B]. rewrite A, B in E. cbn in E.
      apply orb_true_iff in E as [E|E]; apply Nat.eqb_eq in E; subst.
      * right; left. exists j. split; [apply in_app_iff; cbn; auto|]. apply Hnew; auto.
      * right; right. exists i. split; [apply in_app_iff; cbn; auto|]. apply Hnew; auto.
Qed.

Lemma fill_entry_nan_free n m fill thr M0 M P : nan_free M0 -> rect n m M0 -> dis_nan fill = false ->
  inv n m fill thr M0 M P -> nan_free M.
Proof.
  intros Hn HM0 Hf HI. apply (nan_free_entry n m M); [apply HI|].
  intros i j Hi Hj. rewrite (inv_entry _ _ _ _ _ _ _ HI) by auto.
  destruct (used_row P i || used_col P j)%bool; auto.
  apply (proj1 (nan_free_entry n m M0 HM0) Hn); auto.
Qed.

Definition final (n m : nat) (thr : dv) (M0 : matrix N) (P : list (nat * nat)) : Prop :=
  one_to_one P /\ in_range n m P /\ below (entry M0) thr P /\ stable n m (entry M0) thr P
  /\ nondecreasing (entry M0) P.

Lemma inv_final n m fill thr M0 M P : nan_free M0 -> rect n m M0 ->
  inv n m fill thr M0 M P ->
  (forall i j, i < n -> j < m -> ~ dlt (entry M i j) thr) ->
  final n m thr M0 P.
Proof.
  intros Hn HM0 HI Hstop. destruct HI as [Hrect Hent Hf Hs Hrg Hbl Hso Hla Hst].
  split; [split; auto|]. split; auto. split; auto. split; auto.
  intros i j Hi Hj Hlt. apply Hst; auto.
  destruct (used_row P i || used_col P j)%bool eqn:E; auto.
  exfalso. apply (Hstop i j Hi Hj). rewrite Hent, E; auto.
Qed.

Lemma split_combine_app {A B} (a : list A) (b : list B) x y : length a = length b ->
  combine (a ++ [x]) (b ++ [y]) = combine a b ++ [(x, y)].
Proof.
  revert b; induction a; destruct b; cbn; intros; try discriminate; auto. f_equal. auto.
Qed.

Lemma no_entry_below n m (M : matrix N) thr x rest : rect n m M -> nan_free M -> concat M = x :: rest ->
  dltb (list_min x rest) thr = false -> forall i j, i < n -> j < m -> ~ dlt (entry M i j) thr.
Proof.
  intros H Hn E Hmin i j Hi Hj Hlt.
  destruct (round_spec n m M x rest H Hn E) as (A & B & C & D).
  rewrite C in Hmin. specialize (D i j Hi Hj). unfold dle, dlt in *.
  assert (X : dltb (entry M (argmin (concat M) / ncols M) (argmin (concat M) mod ncols M)) thr = true).
  { eapply dle_lt_trans; eauto.
    apply (proj1 (nan_free_entry n m M H) Hn); auto. }
  congruence.
Qed.
Lemma no_entry_empty n m (M : matrix N) thr : rect n m M -> concat M = [] ->
  forall i j, i < n -> j < m -> ~ dlt (entry M i j) thr.
Proof.
  intros H E i j Hi Hj. pose proof (entry_in_concat n m M i j H Hi Hj). rewrite E in *. contradiction.
Qed.

(** Partial correctness of the loop when the filler is not below the threshold. *)
Lemma match_loop_correct fuel : forall n m fill thr M0 M dis ois res,
  nan_free M0 -> rect n m M0 -> dis_nan fill = false -> dltb fill thr = false ->
  length dis = length ois ->
  inv n m fill thr M0 M (combine dis ois) ->
  match_loop fuel fill thr M dis ois = Some res ->
  length (fst res) = length (snd res) /\ final n m thr M0 (combine (fst res) (snd res)).
Proof.
  induction fuel as [|fuel IH]; intros n m fill thr M0 M dis ois res Hn HM0 Hfn Hfill Hlen HI E.
  - cbn in E. destruct (concat M) as [|x rest] eqn:EM.
    + injection E as <-. split; auto. eapply inv_final; eauto.
      eapply no_entry_empty; eauto. apply HI.
    + destruct (dltb (list_min x rest) thr) eqn:Hmin; [discriminate|]. injection E as <-.
      split; auto. eapply inv_final; eauto. eapply no_entry_below; eauto; [apply HI|].
      eapply fill_entry_nan_free; eauto.
  - cbn in E. destruct (concat M) as [|x rest] eqn:EM.
    + injection E as <-. split; auto. eapply inv_final; eauto.
      eapply no_entry_empty; eauto. apply HI.
    + assert (HnM : nan_free M) by (eapply fill_entry_nan_free; eauto).
      destruct (dltb (list_min x rest) thr) eqn:Hmin.
      * rewrite <- EM in E.
        destruct (round_spec n m M x rest (inv_rect _ _ _ _ _ _ _ HI) HnM EM) as (A & B & C & D).
        eapply IH in E; eauto.
        -- rewrite !app_length, Hlen. reflexivity.
        -- rewrite split_combine_app by auto. eapply inv_step; eauto. unfold dlt. rewrite <- C. auto.
      * injection E as <-. split; auto. eapply inv_final; eauto. eapply no_entry_below; eauto. apply HI.
Qed.

Lemma inv_init n m fill thr M0 : rect n m M0 -> inv n m fill thr M0 M0 [].
Proof.
  intros H. constructor; cbn; auto; try constructor; try (intros ? ? []); try discriminate; try contradiction.
Qed.

(** With a filler strictly below the threshold, once a cell holds it the loop never stops. *)
Lemma match_loop_diverges fuel : forall n m fill thr (M : matrix N) dis ois,
  dltb fill thr = true -> rect n m M -> nan_free M ->
  (exists i j, i < n /\ j < m /\ dlt (entry M i j) thr) ->
  match_loop fuel fill thr M dis ois = None.
Proof.
  induction fuel as [|fuel IH]; intros n m fill thr M dis ois Hfill HM Hn (i & j & Hi & Hj & Hlt).
  - cbn. pose proof (entry_in_concat n m M i j HM Hi Hj) as Hin.
    destruct (concat M) as [|x rest] eqn:EM; [contradiction|].
    destruct (dltb (list_min x rest) thr) eqn:Hmin; auto.
    exfalso. eapply no_entry_below; eauto.
  - cbn. pose proof (entry_in_concat n m M i j HM Hi Hj) as Hin.
    destruct (concat M) as [|x rest] eqn:EM; [contradiction|].
    destruct (dltb (list_min x rest) thr) eqn:Hmin; [|exfalso; eapply no_entry_below; eauto].
    rewrite <- EM.
    destruct (round_spec n m M x rest HM Hn EM) as (A & B & C & D).
    set (a := argmin (concat M) / ncols M) in *. set (b := argmin (concat M) mod ncols M) in *.
    assert (HR : rect n m (fill_col b fill (fill_row a fill M))).
    { apply rect_fill_col. apply rect_fill_row; auto. }
    eapply IH; eauto.
    + apply (nan_free_entry n m _ HR). intros u v Hu Hv.
      erewrite entry_fill_col; eauto; [|apply rect_fill_row; eauto].
      erewrite entry_fill_row; eauto.
      destruct (Nat.eqb v b); [apply (dltb_not_nan fill thr Hfill)|].
      destruct (Nat.eqb u a); [apply (dltb_not_nan fill thr Hfill)|].
      apply (proj1 (nan_free_entry n m M HM) Hn); auto.
    + exists a, b. split; [auto|]. split; [auto|]. unfold dlt.
      erewrite entry_fill_col; eauto; [|apply rect_fill_row; eauto].
      rewrite Nat.eqb_refl. auto.
Qed.

(** With no entry below the threshold nothing is matched, whatever the filler. *)
Lemma match_loop_none fuel n m fill thr (M : matrix N) dis ois : rect n m M -> nan_free M ->
  (forall i j, i < n -> j < m -> ~ dlt (entry M i j) thr) ->
  match_loop fuel fill thr M dis ois = Some (dis, ois).
Proof.
  intros HM Hn Hno. destruct fuel; cbn; destruct (concat M) as [|x rest] eqn:EM; auto;
  (destruct (dltb (list_min x rest) thr) eqn:Hmin; auto; exfalso;
   destruct (round_spec n m M x rest HM Hn EM) as (A & B & C & D);
   eapply Hno; [exact A|exact B|]; unfold dlt; rewrite <- C; auto).
Qed.

Lemma in_range_length n m P : one_to_one P -> in_range n m P -> length P <= n /\ length P <= m.
Proof.
  intros [H1 H2] Hr. split.
  - rewrite <- (map_length fst). rewrite <- (seq_length n 0). apply NoDup_incl_length; auto.
    intros x Hx. apply in_map_iff in Hx as ([a b] & <- & Hx). apply in_seq. apply Hr in Hx. cbn; lia.
  - rewrite <- (map_length snd). rewrite <- (seq_length m 0). apply NoDup_incl_length; auto.
    intros x Hx. apply in_map_iff in Hx as ([a b] & <- & Hx). apply in_seq. apply Hr in Hx. cbn; lia.
Qed.

(** Termination: the number of rounds still possible bounds the fuel needed. *)
Lemma match_loop_terminates fuel : forall n m fill thr M0 M dis ois,
  nan_free M0 -> rect n m M0 -> dis_nan fill = false -> dltb fill thr = false ->
  length dis = length ois ->
  inv n m fill thr M0 M (combine dis ois) ->
  Nat.min n m <= fuel + length dis ->
  exists res, match_loop fuel fill thr M dis ois = Some res.
Proof.
  induction fuel as [|fuel IH]; intros n m fill thr M0 M dis ois Hn HM0 Hfn Hfill Hlen HI Hfuel.
  - cbn. destruct (concat M) as [|x rest] eqn:EM; eauto.
    destruct (dltb (list_min x rest) thr) eqn:Hmin; eauto. exfalso.
    assert (HnM : nan_free M) by (eapply fill_entry_nan_free; eauto).
    destruct (round_spec n m M x rest (inv_rect _ _ _ _ _ _ _ HI) HnM EM) as (A & B & C & D).
    edestruct (inv_step n m fill thr M0 M (combine dis ois)) as [HI' _]; eauto.
    { unfold dlt. rewrite <- C. exact Hmin. }
    destruct (in_range_length n m _ (conj (inv_fst _ _ _ _ _ _ _ HI') (inv_snd _ _ _ _ _ _ _ HI'))
                (inv_range _ _ _ _ _ _ _ HI')) as [X Y].
    rewrite app_length, combine_length in X, Y. cbn in *. lia.
  - cbn. destruct (concat M) as [|x rest] eqn:EM; eauto.
    destruct (dltb (list_min x rest) thr) eqn:Hmin; eauto. rewrite <- EM.
    assert (HnM : nan_free M) by (eapply fill_entry_nan_free; eauto).
    destruct (round_spec n m M x rest (inv_rect _ _ _ _ _ _ _ HI) HnM EM) as (A & B & C & D).
    apply (IH n m fill thr M0); auto.
    + rewrite !app_length, Hlen. reflexivity.
    + rewrite split_combine_app by auto. eapply inv_step; eauto. unfold dlt. rewrite <- C. auto.
    + rewrite app_length. cbn. lia.
Qed.

(** The fuel is irrelevant once large enough. *)
Lemma match_loop_fuel_mono fuel : forall fuel' fill thr M dis ois res,
  match_loop fuel fill thr M dis ois = Some res -> fuel <= fuel' ->
  @match_loop N fuel' fill thr M dis ois = Some res.
Proof.
  induction fuel as [|fuel IH]; intros fuel' fill thr M dis ois res H Hle.
  - destruct fuel'; cbn in *; destruct (concat M) as [|x rest]; auto;
    destruct (dltb (list_min x rest) thr); auto; discriminate.
  - destruct fuel'; [lia|]. cbn in *. destruct (concat M) as [|x rest]; auto.
    destruct (dltb (list_min x rest) thr); auto. apply IH; auto. lia.
Qed.

(* ---- the function ---- *)
Lemma dis_nan_succ (thr : dv) : dis_nan (dsucc thr) = dis_nan thr.
Proof. destruct thr; reflexivity. Qed.

(** Whatever the rounding: if the call returns, the result is right. *)
Theorem match_correct rnd n m thr (M : matrix N) dis ois :
  rect n m M -> nan_free M -> (dis_nan (rnd (dsucc thr)) = dis_nan thr) ->
  match_dets_and_objs rnd thr M = Some (dis, ois) ->
  length dis = length ois /\ final n m thr M (combine dis ois).
Proof.
  intros HM Hn Hr E. unfold match_dets_and_objs in E.
  set (fill := rnd (dsucc thr)) in *.
  destruct (dis_nan thr) eqn:Hthr.
  - (* NaN threshold: nothing is below *)
    assert (Hno : forall i j, i < n -> j < m -> ~ dlt (entry M i j) thr).
    { intros i j _ _ C. apply dltb_not_nan in C as [_ C]. congruence. }
    erewrite match_loop_none in E; eauto. injection E as <- <-. cbn. split; auto.
    eapply inv_final with (fill := fill) (M := M); eauto. apply inv_init; auto.
  - destruct (dltb fill thr) eqn:Hf.
    + destruct (match_loop (S (length (concat M))) fill thr M [] []) eqn:E2; [|discriminate].
      destruct (existsb (fun x => dltb x thr) (concat M)) eqn:Ex.
      * apply existsb_exists in Ex as (x & Hx & Hlt).
        destruct (in_concat_entry n m M x HM Hx) as (i & j & Hi & Hj & ->).
        rewrite (match_loop_diverges _ n m) in E2; auto; [discriminate|]. exists i, j. auto.
      * assert (Hno : forall i j, i < n -> j < m -> ~ dlt (entry M i j) thr).
        { intros i j Hi Hj C.
          assert (existsb (fun x => dltb x thr) (concat M) = true); [|congruence].
          apply existsb_exists. eexists. split; [eapply entry_in_concat; eauto|exact C]. }
        erewrite match_loop_none in E2; eauto. injection E2 as <-. injection E as <- <-. cbn. split; auto.
        eapply inv_final with (fill := fill) (M := M); eauto. apply inv_init; auto.
    + eapply (match_loop_correct _ n m fill thr M M [] [] (dis, ois)); eauto. apply inv_init; auto.
Qed.

Theorem match_terminates rnd n m thr (M : matrix N) :
  rect n m M -> nan_free M -> dis_nan (rnd (dsucc thr)) = dis_nan thr ->
  dltb (rnd (dsucc thr)) thr = false ->
  exists dis ois, match_loop (Nat.min n m) (rnd (dsucc thr)) thr M [] [] = Some (dis, ois)
    /\ match_dets_and_objs rnd thr M = Some (dis, ois)
    /\ length dis <= Nat.min n m.
Proof.
  intros HM Hn Hr Hf.
  assert (H : exists res, match_loop (Nat.min n m) (rnd (dsucc thr)) thr M [] [] = Some res).
  { destruct (dis_nan thr) eqn:Hthr.
    - exists ([], []). eapply match_loop_none; eauto.
      intros i j _ _ C. apply dltb_not_nan in C as [_ C]. congruence.
    - eapply match_loop_terminates; eauto. + apply inv_init; auto. + cbn. lia. }
  destruct H as [[dis ois] E].
  assert (E' : match_dets_and_objs rnd thr M = Some (dis, ois)).
  { unfold match_dets_and_objs. eapply match_loop_fuel_mono; eauto.
    rewrite (rect_concat_length n m M HM). nia. }
  exists dis, ois. repeat split; auto.
  destruct (match_correct rnd n m thr M dis ois HM Hn Hr E') as [Hl (H1 & H2 & _)].
  destruct (in_range_length n m _ H1 H2). rewrite combine_length in *. lia.
Qed.

Theorem match_diverges_iff rnd n m thr (M : matrix N) :
  rect n m M -> nan_free M -> dis_nan (rnd (dsucc thr)) = dis_nan thr ->
  ((forall fuel, match_loop fuel (rnd (dsucc thr)) thr M [] [] = None) <->
   dltb (rnd (dsucc thr)) thr = true /\ exists i j, i < n /\ j < m /\ dlt (entry M i j) thr).
Proof.
  intros HM Hn Hr. split.
  - intros H. destruct (dltb (rnd (dsucc thr)) thr) eqn:E.
    + split; auto. destruct (existsb (fun x => dltb x thr) (concat M)) eqn:Ex.
      * apply existsb_exists in Ex as (x & Hx & Hlt).
        destruct (in_concat_entry n m M x HM Hx) as (i & j & Hi & Hj & ->). exists i, j. auto.
      * exfalso. specialize (H 0). erewrite match_loop_none in H; eauto; [discriminate|].
        intros i j Hi Hj C.
        assert (existsb (fun x => dltb x thr) (concat M) = true); [|congruence].
        apply existsb_exists. eexists. split; [eapply entry_in_concat; eauto|exact C].
    + exfalso. destruct (match_terminates rnd n m thr M HM Hn Hr E) as (a & b & X & _).
      rewrite H in X. discriminate.
  - intros [H1 H2] fuel. eapply match_loop_diverges; eauto.
Qed.

(* ---- uniqueness ---- *)
Definition good n m (d : nat -> nat -> dv) thr P :=
  one_to_one P /\ in_range n m P /\ below d thr P /\ stable n m d thr P.

Lemma NoDup_fst_inj {B} (P : list (nat * B)) i a b : NoDup (map fst P) -> In (i, a) P -> In (i, b) P -> a = b.
Proof.
  induction P as [|[k c] P IH]; cbn; [contradiction|]. intros H Ha Hb. inversion H as [|? ? Hni Hnd]; subst.
  destruct Ha as [Ea|Ha], Hb as [Eb|Hb].
  - congruence.
  - injection Ea as -> ->. exfalso. apply Hni. apply in_map_iff. exists (i, b). auto.
  - injection Eb as -> ->. exfalso. apply Hni. apply in_map_iff. exists (i, a). auto.
  - eauto.
Qed.
Lemma NoDup_snd_inj {A} (P : list (A * nat)) j a b : NoDup (map snd P) -> In (a, j) P -> In (b, j) P -> a = b.
Proof.
  intros H Ha Hb. apply (NoDup_fst_inj (map (fun p => (snd p, fst p)) P) j).
  - rewrite map_map. cbn. auto.
  - apply in_map_iff. exists (a, j). auto.
  - apply in_map_iff. exists (b, j). auto.
Qed.

Definition cells n m := list_prod (seq 0 n) (seq 0 m).
Definition rank n m (d : nat -> nat -> dv) i j :=
  length (filter (fun c => dltb (d (fst c) (snd c)) (d i j)) (cells n m)).

Lemma filter_length_lt {A} (f g : A -> bool) l x : (forall y, In y l -> f y = true -> g y = true) ->
  In x l -> f x = false -> g x = true -> length (filter f l) < length (filter g l).
Proof.
  intros H Hx Hf Hg. induction l as [|y l IH]; [contradiction|]. cbn.
  assert (Hle : forall l, (forall y, In y l -> f y = true -> g y = true) -> length (filter f l) <= length (filter g l)).
  { clear. induction l; cbn; auto. intros H. destruct (f a) eqn:E.
    - rewrite (H a) by auto. cbn. apply le_n_S. auto.
    - destruct (g a); cbn; auto. }
  destruct Hx as [<-|Hx].
  - rewrite Hf, Hg. cbn. apply Nat.lt_succ_r. apply Hle. intros; apply H; cbn; auto.
  - assert (length (filter f l) < length (filter g l)) by (apply IH; auto; intros; apply H; cbn; auto).
    destruct (f y) eqn:E; [rewrite (H y) by (cbn; auto); cbn; lia|]. destruct (g y); cbn; lia.
Qed.

Lemma rank_lt n m d i j i' j' : i < n -> j < m -> dlt (d i j) (d i' j') -> rank n m d i j < rank n m d i' j'.
Proof.
  intros Hi Hj H. unfold rank. apply filter_length_lt with (x := (i, j)); cbn.
  - intros [a b] _ Hab. cbn in *. eapply dltb_trans; eauto.
  - unfold cells. apply in_prod; apply in_seq; lia.
  - apply dltb_irrefl; auto.
  - exact H.
Qed.

Lemma stable_unique_incl n m d thr : no_ties n m d thr ->
  forall k A B, good n m d thr A -> good n m d thr B ->
  forall i j, In (i, j) A -> rank n m d i j < k -> In (i, j) B.
Proof.
  intros Hties k. induction k as [|k IH]; intros A B HA HB i j Hin Hk; [lia|].
  destruct HA as ((A1 & A2) & A3 & A4 & A5) eqn:EA. destruct HB as ((B1 & B2) & B3 & B4 & B5) eqn:EB.
  pose proof (A3 i j Hin) as [Hi Hj]. pose proof (A4 i j Hin) as Hlt.
  destruct (B5 i j Hi Hj Hlt) as [H|[(j' & H & Hle)|(i' & H & Hle)]]; auto.
  - destruct (Nat.eq_dec j j') as [->|Hne]; auto. exfalso.
    pose proof (B3 _ _ H) as [_ Hj']. pose proof (B4 _ _ H) as Hlt'.
    destruct (Hties i j' i j) as [X|X]; auto; [congruence| |].
    + pose proof (rank_lt n m d i j' i j Hi Hj' X).
      assert (In (i, j') A). { eapply (IH B A); [unfold good, one_to_one; auto|unfold good, one_to_one; auto|exact H|lia]. }
      pose proof (NoDup_fst_inj A i j j' A1 Hin H1). congruence.
    + unfold dle, dlt in *. congruence.
  - destruct (Nat.eq_dec i i') as [->|Hne]; auto. exfalso.
    pose proof (B3 _ _ H) as [Hi' _]. pose proof (B4 _ _ H) as Hlt'.
    destruct (Hties i' j i j) as [X|X]; auto; [congruence| |].
    + pose proof (rank_lt n m d i' j i j Hi' Hj X).
      assert (In (i', j) A). { eapply (IH B A); [unfold good, one_to_one; auto|unfold good, one_to_one; auto|exact H|lia]. }
      pose proof (NoDup_snd_inj A j i i' A2 Hin H1). congruence.
    + unfold dle, dlt in *. congruence.
Qed.

Theorem stable_unique n m d thr A B : no_ties n m d thr -> good n m d thr A -> good n m d thr B ->
  forall i j, In (i, j) A <-> In (i, j) B.
Proof.
  intros Ht HA HB i j.
  split; intros H;
    [apply (stable_unique_incl n m d thr Ht (S (rank n m d i j)) A B)
    |apply (stable_unique_incl n m d thr Ht (S (rank n m d i j)) B A)]; auto with arith.
Qed.

(** Reordering rows and columns. *)
Lemma good_permute n m d d' thr s t P :
  perm_of n s -> perm_of m t ->
  (forall i j, i < n -> j < m -> d' i j = d (s i) (t j)) ->
  good n m d' thr P ->
  good n m d thr (map (fun p => (s (fst p), t (snd p))) P).
Proof.
  intros (S1 & S2 & S3) (T1 & T2 & T3) Hd ((P1 & P2) & P3 & P4 & P5).
  assert (Hinj : forall (f : nat -> nat) n l, (forall i j, i < n -> j < n -> f i = f j -> i = j) ->
     (forall x, In x l -> x < n) -> NoDup l -> NoDup (map f l)).
  { clear. intros f n l Hf Hl H. induction H; cbn; constructor.
    - intros C. apply in_map_iff in C as (y & E & Hy). apply Hf in E; [subst; contradiction| |]; apply Hl; cbn; auto.
    - apply IHNoDup. intros; apply Hl; cbn; auto. }
  repeat split.
  - rewrite map_map. cbn. rewrite <- map_map. apply (Hinj s n); auto.
    intros x Hx. apply in_map_iff in Hx as ([a b] & <- & Hx). apply (P3 a b Hx).
  - rewrite map_map. cbn. rewrite <- map_map. apply (Hinj t m); auto.
    intros x Hx. apply in_map_iff in Hx as ([a b] & <- & Hx). apply (P3 a b Hx).
  - apply in_map_iff in H as ([a b] & E & H). injection E as <- <-. apply S1. apply (P3 a b H).
  - apply in_map_iff in H as ([a b] & E & H). injection E as <- <-. apply T1. apply (P3 a b H).
  - intros i j H. apply in_map_iff in H as ([a b] & E & H). injection E as <- <-. cbn.
    destruct (P3 a b H). rewrite <- Hd by auto. apply P4; auto.
  - intros i j Hi Hj Hlt. destruct (S3 i Hi) as (a & Ha & <-). destruct (T3 j Hj) as (b & Hb & <-).
    rewrite <- Hd in Hlt by auto. destruct (P5 a b Ha Hb Hlt) as [H|[(b' & H & Hle)|(a' & H & Hle)]].
    + left. apply in_map_iff. exists (a, b). auto.
    + right; left. destruct (P3 _ _ H). exists (t b'). rewrite <- !Hd by auto. split; auto.
      apply in_map_iff. exists (a, b'). auto.
    + right; right. destruct (P3 _ _ H). exists (s a'). rewrite <- !Hd by auto. split; auto.
      apply in_map_iff. exists (a', b). auto.
Qed.

Theorem match_permute rnd n m thr (M M' : matrix N) s t dis ois dis' ois' :
  rect n m M -> rect n m M' -> nan_free M -> nan_free M' -> dis_nan (rnd (dsucc thr)) = dis_nan thr ->
  perm_of n s -> perm_of m t ->
  (forall i j, i < n -> j < m -> entry M' i j = entry M (s i) (t j)) ->
  no_ties n m (entry M) thr ->
  match_dets_and_objs rnd thr M = Some (dis, ois) ->
  match_dets_and_objs rnd thr M' = Some (dis', ois') ->
  forall i j, i < n -> j < m ->
    (In (i, j) (combine dis' ois') <-> In (s i, t j) (combine dis ois)).
Proof.
  intros HM HM' Hn Hn' Hr Hs Ht Hd Hties E E' i j Hi Hj.
  destruct (match_correct rnd n m thr M dis ois HM Hn Hr E) as [_ (A1 & A2 & A3 & A4 & _)].
  destruct (match_correct rnd n m thr M' dis' ois' HM' Hn' Hr E') as [_ (B1 & B2 & B3 & B4 & _)].
  assert (G : good n m (entry M) thr (map (fun p => (s (fst p), t (snd p))) (combine dis' ois'))).
  { eapply good_permute; eauto. unfold good; auto. }
  pose proof (stable_unique n m (entry M) thr _ (combine dis ois) Hties G) as U.
  specialize (U (conj A1 (conj A2 (conj A3 A4)))).
  rewrite <- U. rewrite in_map_iff. split.
  - intros H. exists (i, j). auto.
  - intros ([a b] & Eab & H). cbn in Eab. injection Eab as Ea Eb.
    destruct (B2 a b H). destruct Hs as (_ & S2 & _), Ht as (_ & T2 & _).
    apply S2 in Ea; auto. apply T2 in Eb; auto. subst. auto.
Qed.
End P.

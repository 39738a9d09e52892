(** [match_dets_and_objs] computes exactly the greedy assignment. *)
From Coq Require Import ZArith Bool List Arith Lia.
From Verif Require Import Model.Num Model.Matching Spec.MatchingSpec Proofs.NumLaws Proofs.MatchingProofs.
Import ListNotations.

Section P.
Context {N : Num} (L : NumLaws N).
Notation dv := (dval N).

(** [argmin_from] gives the first minimum: all values before it are strictly larger. *)
Lemma argmin_from_first l : forall (best : dv) bi pre,
  nth bi pre DNaN = best -> bi < length pre -> dis_nan best = false ->
  Forall (fun y => dis_nan y = false) (pre ++ l) ->
  (forall k, k < bi -> dltb best (nth k pre DNaN) = true) ->
  (forall k, k < length pre -> dltb (nth k pre DNaN) best = false) ->
  let k := argmin_from best bi (length pre) l in
  forall k', k' < k -> dltb (nth k (pre ++ l) DNaN) (nth k' (pre ++ l) DNaN) = true.
Proof.
  induction l as [|y l IH]; intros best bi pre Hb Hbi Hnb HF H1 H2; cbn.
  - intros k' Hk. rewrite app_nil_r in *. rewrite Hb. auto.
  - assert (Hny : dis_nan y = false).
    { rewrite Forall_forall in HF. apply HF. apply in_app_iff. right. left. reflexivity. }
    assert (HF' : Forall (fun y => dis_nan y = false) ((pre ++ [y]) ++ l)) by (rewrite <- app_assoc; exact HF).
    assert (Hlen : length (pre ++ [y]) = S (length pre)) by (rewrite app_length; cbn; lia).
    assert (Hpre : forall k, k < length pre -> nth k (pre ++ [y]) DNaN = nth k pre DNaN) by (intros; apply app_nth1; auto).
    assert (Hy : nth (length pre) (pre ++ [y]) DNaN = y) by (rewrite app_nth2, Nat.sub_diag by lia; reflexivity).
    assert (HFp : forall k, k < length pre -> dis_nan (nth k pre DNaN) = false).
    { intros k Hk. rewrite Forall_forall in HF. apply HF. apply in_app_iff. left. apply nth_In. auto. }
    destruct (dltb y best) eqn:E.
    + intros k' Hk'. specialize (IH y (length pre) (pre ++ [y])). rewrite Hlen, <- app_assoc in IH. cbn in IH.
      apply IH; auto; try lia.
      * intros k Hk. rewrite Hpre by auto. eapply (dlt_le_trans L); [apply HFp; auto|exact E|apply H2; auto].
      * intros k Hk. destruct (Nat.eq_dec k (length pre)) as [->|Hne].
        -- rewrite Hy. apply (dltb_irrefl L).
        -- rewrite Hpre by lia. destruct (dltb (nth k pre DNaN) y) eqn:X; auto.
           pose proof (dltb_trans L _ _ _ X E). rewrite H2 in *; [discriminate|lia].
    + intros k' Hk'. specialize (IH best bi (pre ++ [y])). rewrite Hlen, <- app_assoc in IH. cbn in IH.
      apply IH; auto; try lia.
      * rewrite Hpre by auto. auto.
      * intros k Hk. rewrite Hpre by lia. auto.
      * intros k Hk. destruct (Nat.eq_dec k (length pre)) as [->|Hne]; [rewrite Hy; auto|].
        rewrite Hpre by lia. apply H2. lia.
Qed.

Lemma argmin_first (x : dv) l : Forall (fun y => dis_nan y = false) (x :: l) ->
  forall k', k' < argmin (x :: l) -> dltb (nth (argmin (x :: l)) (x :: l) DNaN) (nth k' (x :: l) DNaN) = true.
Proof.
  intros HF k' Hk'. apply (argmin_from_first l x 0 [x]); auto; cbn; try lia.
  - inversion HF; auto.
  - intros [|k] Hk; [|lia]. apply (dltb_irrefl L).
Qed.

Lemma nan_free_forall (M : matrix N) : nan_free M -> Forall (fun y => dis_nan y = false) (concat M).
Proof.
  intros Hn. apply Forall_forall. intros y Hy. unfold nan_free in Hn. destruct (dis_nan y) eqn:D; auto.
  assert (existsb dis_nan (concat M) = true) by (apply existsb_exists; eauto). congruence.
Qed.

(** The cell of one round is the first minimum, row by row. *)
Lemma round_first n m (M : matrix N) x rest : rect n m M -> nan_free M -> concat M = x :: rest ->
  let k := argmin (concat M) in
  let i := k / ncols M in let j := k mod ncols M in
  forall a b, a < n -> b < m -> before (a, b) (i, j) -> dlt (entry M i j) (entry M a b).
Proof.
  intros H Hn E k i j a b Ha Hb Hbef.
  assert (Hm : 0 < m) by lia.
  assert (Hc : ncols M = m) by (eapply rect_ncols; eauto; lia).
  pose proof (rect_concat_length n m M H) as Hlen.
  destruct (argmin_spec x rest) as [A _]. rewrite <- E in A. rewrite Hlen in A.
  destruct (nth_concat n m M k H A) as (E1 & Hi & Hj).
  assert (Hab : a * m + b < n * m) by nia.
  destruct (nth_concat n m M (a * m + b) H Hab) as (E2 & _ & _).
  assert (D1 : (a * m + b) / m = a) by (rewrite Nat.div_add_l by lia; rewrite Nat.div_small by auto; lia).
  assert (D2 : (a * m + b) mod m = b) by (rewrite Nat.add_comm, Nat.mod_add by lia; apply Nat.mod_small; auto).
  rewrite D1, D2 in E2. subst i j. rewrite Hc in *. unfold dlt. rewrite <- E1, <- E2.
  pose proof (nan_free_forall M Hn) as HF. assert (Hk0 : k = argmin (x :: rest)) by (unfold k; rewrite E; reflexivity).
  rewrite E in HF. rewrite E. pattern k at 1. rewrite Hk0. apply argmin_first; auto. rewrite <- Hk0.
  pose proof (Nat.div_mod k m ltac:(lia)) as Hk. unfold before in Hbef. cbn in Hbef. fold k in Hbef.
  destruct Hbef as [Hlt|[-> Hlt]]; nia.
Qed.

Definition free_rows n (P : list (nat * nat)) := filter (fun i => negb (used_row P i)) (seq 0 n).
Definition free_cols m (P : list (nat * nat)) := filter (fun j => negb (used_col P j)) (seq 0 m).

Lemma in_free_rows n P i : In i (free_rows n P) <-> i < n /\ used_row P i = false.
Proof. unfold free_rows. rewrite filter_In, in_seq, negb_true_iff. intuition lia. Qed.
Lemma in_free_cols n P i : In i (free_cols n P) <-> i < n /\ used_col P i = false.
Proof. unfold free_cols. rewrite filter_In, in_seq, negb_true_iff. intuition lia. Qed.

Lemma remove_filter (f : nat -> bool) i l : remove Nat.eq_dec i (filter f l) = filter (fun x => f x && negb (Nat.eqb x i))%bool l.
Proof.
  induction l as [|x l IH]; cbn; auto. destruct (f x) eqn:E; cbn; [|exact IH].
  destruct (Nat.eq_dec i x) as [->|Hne]; [rewrite Nat.eqb_refl; exact IH|].
  destruct (Nat.eqb_spec x i); [congruence|]. cbn. rewrite IH. reflexivity.
Qed.
Lemma free_rows_snoc n P i j : free_rows n (P ++ [(i, j)]) = remove Nat.eq_dec i (free_rows n P).
Proof.
  unfold free_rows. rewrite remove_filter. apply filter_ext. intros x. unfold used_row. rewrite existsb_app. cbn.
  rewrite orb_false_r, negb_orb. reflexivity.
Qed.
Lemma free_cols_snoc n P i j : free_cols n (P ++ [(i, j)]) = remove Nat.eq_dec j (free_cols n P).
Proof.
  unfold free_cols. rewrite remove_filter. apply filter_ext. intros x. unfold used_col. rewrite existsb_app. cbn.
  rewrite orb_false_r, negb_orb. reflexivity.
Qed.

Lemma match_loop_greedy fuel : forall n m (fill thr : dv) (M0 M : matrix N) dis ois res,
  nan_free M0 -> rect n m M0 -> dis_nan fill = false -> dltb fill thr = false ->
  length dis = length ois ->
  inv n m fill thr M0 M (combine dis ois) ->
  match_loop fuel fill thr M dis ois = Some res ->
  exists new, combine (fst res) (snd res) = combine dis ois ++ new /\
    @greedy N (entry M0) thr (free_rows n (combine dis ois)) (free_cols m (combine dis ois)) new.
Proof.
  assert (Hstop : forall n m (fill thr : dv) M0 M P, inv n m fill thr M0 M P ->
      (forall i j, i < n -> j < m -> ~ dlt (entry M i j) thr) -> greedy (entry M0) thr (free_rows n P) (free_cols m P) []).
  { intros n m fill thr M0 M P HI Hno. constructor. intros i j Hi Hj Hlt.
    apply in_free_rows in Hi as [Hi Ui]. apply in_free_cols in Hj as [Hj Uj].
    apply (Hno i j Hi Hj). rewrite (inv_entry _ _ _ _ _ _ _ HI), Ui, Uj by auto. exact Hlt. }
  induction fuel as [|fuel IH]; intros n m fill thr M0 M dis ois res Hn HM0 Hf Hft Hlen HI E.
  - cbn in E. pose proof (fill_entry_nan_free _ _ _ _ _ _ _ Hn HM0 Hf HI) as HnM.
    pose proof (inv_rect _ _ _ _ _ _ _ HI) as HM.
    destruct (concat M) as [|x rest] eqn:EM.
    + injection E as <-. exists []. rewrite app_nil_r. split; auto.
      eapply Hstop; [exact HI|]. eapply no_entry_empty; eauto.
    + destruct (dltb (list_min x rest) thr) eqn:Em; [discriminate|].
      injection E as <-. exists []. rewrite app_nil_r. split; auto.
      eapply Hstop; [exact HI|]. eapply (no_entry_below L); eauto.
  - cbn in E. pose proof (fill_entry_nan_free _ _ _ _ _ _ _ Hn HM0 Hf HI) as HnM.
    pose proof (inv_rect _ _ _ _ _ _ _ HI) as HM.
    destruct (concat M) as [|x rest] eqn:EM.
    + injection E as <-. exists []. rewrite app_nil_r. split; auto.
      eapply Hstop; [exact HI|]. eapply no_entry_empty; eauto.
    + destruct (dltb (list_min x rest) thr) eqn:Em.
      2:{ injection E as <-. exists []. rewrite app_nil_r. split; auto.
          eapply Hstop; [exact HI|]. eapply (no_entry_below L); eauto. }
      pose proof (round_spec L n m M x rest HM HnM EM) as RS. cbv zeta in RS.
      pose proof (round_first n m M x rest HM HnM EM) as RF. cbv zeta in RF.
      rewrite <- EM in E. rewrite EM in E.
      set (k := argmin (concat M)) in *. rewrite <- EM in E. fold k in E.
      set (i := k / ncols M) in *. set (j := k mod ncols M) in *.
      destruct RS as (Hi & Hj & Hmin & Hle). rewrite Hmin in Em.
      destruct (inv_step n m fill thr M0 M (combine dis ois) i j Hn HM0 Hf Hft HI Hi Hj Em Hle) as (HI' & Hni & Hnj).
      rewrite <- split_combine_app in HI' by auto.
      apply (IH n m fill thr M0) in E; auto; [|rewrite !app_length; cbn; lia].
      destruct E as (new & E1 & E2). rewrite split_combine_app in E1, E2 by auto.
      exists ((i, j) :: new). split; [rewrite E1, <- app_assoc; reflexivity|].
      rewrite free_rows_snoc, free_cols_snoc in E2.
      assert (Ui : used_row (combine dis ois) i = false).
      { destruct (used_row (combine dis ois) i) eqn:U; auto. apply used_row_iff in U as (b & U).
        exfalso. apply Hni. apply in_map_iff. exists (i, b). auto. }
      assert (Uj : used_col (combine dis ois) j = false).
      { destruct (used_col (combine dis ois) j) eqn:U; auto. apply used_col_iff in U as (b & U).
        exfalso. apply Hnj. apply in_map_iff. exists (b, j). auto. }
      assert (Ent : forall a b, In a (free_rows n (combine dis ois)) -> In b (free_cols m (combine dis ois)) ->
          entry M a b = entry M0 a b).
      { intros a b Ha Hb. apply in_free_rows in Ha as [Ha Ua]. apply in_free_cols in Hb as [Hb Ub].
        rewrite (inv_entry _ _ _ _ _ _ _ HI), Ua, Ub by auto. reflexivity. }
      assert (Fi : In i (free_rows n (combine dis ois))) by (apply in_free_rows; auto).
      assert (Fj : In j (free_cols m (combine dis ois))) by (apply in_free_cols; auto).
      constructor; auto.
      * unfold dlt. rewrite <- Ent by auto. exact Em.
      * intros a b Ha Hb. rewrite <- !Ent by auto.
        apply in_free_rows in Ha as [Ha _]. apply in_free_cols in Hb as [Hb _]. split; [apply Hle; auto|].
        intros Hbef. apply RF; auto.
Qed.

Theorem match_greedy rnd n m thr (M : matrix N) dis ois :
  rect n m M -> nan_free M -> (dis_nan (rnd (dsucc thr)) = dis_nan thr) ->
  match_dets_and_objs rnd thr M = Some (dis, ois) ->
  greedy (entry M) thr (seq 0 n) (seq 0 m) (combine dis ois).
Proof.
  intros HM Hn Hr E. unfold match_dets_and_objs in E. set (fill := rnd (dsucc thr)) in *.
  assert (Hno : (forall i j, i < n -> j < m -> ~ dlt (entry M i j) thr) -> greedy (entry M) thr (seq 0 n) (seq 0 m) (combine dis ois)).
  { intros Hno. rewrite (match_loop_none L _ n m) in E by auto. injection E as <- <-. constructor.
    intros i j Hi Hj. apply in_seq in Hi. apply in_seq in Hj. apply Hno; lia. }
  destruct (dis_nan thr) eqn:Ht.
  { apply Hno. intros i j _ _ H. unfold dlt in H. destruct thr; try discriminate. destruct (entry M i j); discriminate. }
  destruct (dltb fill thr) eqn:Ef.
  { apply Hno. intros i j Hi Hj Hlt. rewrite (match_loop_diverges L _ n m) in E; eauto. discriminate. }
  apply (match_loop_greedy _ n m fill thr M M [] []) in E; auto; [|apply inv_init; auto].
  destruct E as (new & E1 & E2). cbn in E1. rewrite E1.
  unfold free_rows, free_cols in E2. cbn in E2.
  assert (F : forall (l : list nat), filter (fun _ => true) l = l) by (induction l; cbn; congruence).
  rewrite !F in E2. exact E2.
Qed.

(** The greedy assignment is unique. *)
Theorem greedy_unique d thr rows cols P : @greedy N d thr rows cols P -> forall Q, greedy d thr rows cols Q -> P = Q.
Proof.
  induction 1 as [rows cols Hno|rows cols i j P Hi Hj Hlt Hmin HP IH]; intros Q HQ; inversion HQ as [|? ? i' j' Q' Hi' Hj' Hlt' Hmin' HQ']; subst; auto.
  - exfalso. eapply Hno; eauto.
  - exfalso. eapply H; eauto.
  - assert (E : (i, j) = (i', j')).
    { destruct (Hmin i' j' Hi' Hj') as [A1 A2]. destruct (Hmin' i j Hi Hj) as [B1 B2].
      unfold before, dlt, dle in *. cbn in *.
      destruct (lt_eq_lt_dec i i') as [[C|C]|C]; [rewrite B2 in A1 by auto; discriminate| |rewrite A2 in B1 by auto; discriminate].
      destruct (lt_eq_lt_dec j j') as [[D|D]|D]; [rewrite B2 in A1 by auto; discriminate|congruence|rewrite A2 in B1 by auto; discriminate]. }
    injection E as <- <-. f_equal. apply IH; auto.
Qed.
End P.

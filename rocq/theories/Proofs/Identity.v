(** Invariants about ids, for all histories (also through exceptions). *)
From Coq Require Import ZArith Bool Arith String List Lia Sorting.Sorted.
From Verif Require Import Model.Num Model.Base Model.Matching Model.Filter Model.Tracker
  Spec.IdentitySpec Proofs.TrackerFrame.
Import ListNotations.

Section Identity.
Context {N : Num} {FO : filter_ops N}.
Notation st := (st FO).
Notation tobj := (tobj FO).

Lemma upd_same {A} (h : nat -> A) r v : upd h r v r = v.
Proof. unfold upd. rewrite Nat.eqb_refl. reflexivity. Qed.
Lemma upd_other {A} (h : nat -> A) r v k : k <> r -> upd h r v k = h k.
Proof. unfold upd. intros H. apply Nat.eqb_neq in H. rewrite H. reflexivity. Qed.

Lemma same_ident_trans (a b c : tobj) : same_ident a b -> same_ident b c -> same_ident a c.
Proof. unfold same_ident. intros (A & B & C & D) (E & F & G & H). repeat split; congruence. Qed.

(** The effect of a primitive on identities. *)
Inductive shape (s s' : st) : Prop :=
| Sh_same :
    s_icount s' = s_icount s -> s_count s' = s_count s -> s_gcount s' = s_gcount s ->
    (forall j, same_ident (s_store s j) (s_store s' j)) ->
    (StronglySorted lt (s_tracked s) -> StronglySorted lt (s_tracked s')) -> incl (s_tracked s') (s_tracked s) ->
    shape s s'
| Sh_acq i :
    valid s i -> s_icount s' = s_icount s ->
    s_count s' = S (s_count s) -> s_gcount s' = S (s_gcount s) ->
    (forall j, j <> i -> same_ident (s_store s j) (s_store s' j)) ->
    o_initializing (s_store s i) = true -> o_initializing (s_store s' i) = false ->
    o_conf (s_store s' i) = o_conf (s_store s i) ->
    o_id (s_store s' i) = Some (S (s_count s)) -> o_gid (s_store s' i) = Some (S (s_gcount s)) ->
    s_tracked s' = s_tracked s -> shape s s'
| Sh_new :
    s_icount s' = S (s_icount s) -> s_count s' = s_count s -> s_gcount s' = s_gcount s ->
    (forall j, j <> S (s_icount s) -> same_ident (s_store s j) (s_store s' j)) ->
    oc_iid (o_conf (s_store s' (S (s_icount s)))) = S (s_icount s) ->
    o_initializing (s_store s' (S (s_icount s))) = true ->
    o_id (s_store s' (S (s_icount s))) = None -> o_gid (s_store s' (S (s_icount s))) = None ->
    s_tracked s' = s_tracked s ++ [S (s_icount s)] -> shape s s'
| Sh_newacq :
    s_icount s' = S (s_icount s) ->
    s_count s' = S (s_count s) -> s_gcount s' = S (s_gcount s) ->
    (forall j, j <> S (s_icount s) -> same_ident (s_store s j) (s_store s' j)) ->
    oc_iid (o_conf (s_store s' (S (s_icount s)))) = S (s_icount s) ->
    o_initializing (s_store s' (S (s_icount s))) = false ->
    o_id (s_store s' (S (s_icount s))) = Some (S (s_count s)) ->
    o_gid (s_store s' (S (s_icount s))) = Some (S (s_gcount s)) ->
    s_tracked s' = s_tracked s ++ [S (s_icount s)] -> shape s s'.

Lemma same_ident_upd (h : nat -> tobj) i v j : same_ident (h i) v -> same_ident (h j) (upd h i v j).
Proof.
  intros H. destruct (Nat.eq_dec j i) as [->|Hne]; [rewrite upd_same; auto|rewrite upd_other by auto; apply same_ident_refl].
Qed.

Lemma cond_add_past_ident i r (s : st) j : same_ident (s_store s j) (s_store (fst (cond_add_past i r s)) j).
Proof.
  unfold cond_add_past. destruct (Nat.eqb _ 0); [apply same_ident_refl|]. destruct (Nat.ltb _ _); cbn.
  { apply same_ident_upd. repeat split. }
  destruct (o_past _); [apply same_ident_refl|]. destruct (d_age _); [|apply same_ident_refl].
  destruct (_ <=? _)%Z; [|apply same_ident_refl]. cbn. apply same_ident_upd. repeat split.
Qed.

Lemma prim_shape cf s s' : prim cf s s' -> shape s s'.
Proof.
  destruct 1 as [T r s|i r s|i f s Hf|i j0 s Hre0 Hj0|i s Hv Hi|l s Hnd Hincl|r p ct s].
  - apply Sh_same; cbn; auto using incl_refl. intros; apply same_ident_refl.
  - destruct (cond_add_past_counts i r s) as (A & B & C & D).
    apply Sh_same; auto; [|rewrite D; auto|rewrite D; apply incl_refl]. intros j. apply cond_add_past_ident.
  - apply Sh_same; cbn; auto using incl_refl. intros j. apply same_ident_upd. apply omut_ident, Hf.
  - apply Sh_same; cbn; auto using incl_refl. intros j. apply same_ident_upd. repeat split.
  - apply (Sh_acq _ _ i); cbn; auto; rewrite ?upd_same; cbn; auto.
    intros j Hj. rewrite !upd_other by auto. apply same_ident_refl.
  - apply Sh_same; cbn; auto. intros; apply same_ident_refl.
  - unfold create_object. cbv zeta. destruct (p <=? tc_delay cf)%Z.
    + apply Sh_new; cbn; rewrite ?upd_same; auto.
      intros j Hj. rewrite upd_other by auto. apply same_ident_refl.
    + apply Sh_newacq; cbn; rewrite ?upd_same; auto.
      intros j Hj. rewrite !upd_other by auto. apply same_ident_refl.
Qed.

Record TInv (s : st) : Prop := {
  ti_sorted : StronglySorted lt (s_tracked s);
  ti_valid : Forall (valid s) (s_tracked s);
  ti_iid : forall i, valid s i -> oc_iid (o_conf (s_store s i)) = i;
  ti_init : forall i, valid s i -> o_initializing (s_store s i) = true ->
     o_id (s_store s i) = None /\ o_gid (s_store s i) = None;
  ti_done : forall i, valid s i -> o_initializing (s_store s i) = false ->
     exists a g, o_id (s_store s i) = Some a /\ o_gid (s_store s i) = Some g
       /\ 1 <= a <= s_count s /\ 1 <= g <= s_gcount s;
  ti_inj : forall i j a, valid s i -> valid s j ->
     o_id (s_store s i) = Some a -> o_id (s_store s j) = Some a -> i = j;
  ti_surj : forall a, 1 <= a <= s_count s -> exists i, valid s i /\ o_id (s_store s i) = Some a;
  ti_count : length (filter (fun i => negb (o_initializing (s_store s i))) (seq 1 (s_icount s))) = s_count s
}.

Lemma ti_nodup s : TInv s -> NoDup (s_tracked s).
Proof. intros T. apply sorted_NoDup, (ti_sorted _ T). Qed.

Lemma sorted_snoc l n : StronglySorted lt l -> (forall x, In x l -> x < n) -> StronglySorted lt (l ++ [n]).
Proof.
  induction 1 as [|y l H IH F]; intros Hn; cbn; [repeat constructor|]. constructor.
  - apply IH. intros; apply Hn; right; auto.
  - apply Forall_app. split; auto. constructor; [apply Hn; left; auto|constructor].
Qed.

Lemma ident_init (o o' : tobj) : same_ident o o' -> o_initializing o = o_initializing o'.
Proof. intros H; apply H. Qed.
Lemma ident_id (o o' : tobj) : same_ident o o' -> o_id o = o_id o'.
Proof. intros H; apply H. Qed.
Lemma ident_gid (o o' : tobj) : same_ident o o' -> o_gid o = o_gid o'.
Proof. intros H; apply H. Qed.
Lemma ident_conf (o o' : tobj) : same_ident o o' -> o_conf o = o_conf o'.
Proof. intros H; apply H. Qed.

Lemma filter_ext_len {A} (f g : A -> bool) l : (forall a, In a l -> f a = g a) ->
  length (filter f l) = length (filter g l).
Proof. intros H. rewrite (filter_ext_in _ _ _ H). reflexivity. Qed.

Lemma filter_flip (f g : nat -> bool) i l : NoDup l -> In i l -> f i = false -> g i = true ->
  (forall j, j <> i -> f j = g j) -> length (filter g l) = S (length (filter f l)).
Proof.
  intros Hnd Hi Hf Hg H. induction Hnd as [|x l Hx Hnd IH]; [contradiction|]. cbn.
  destruct (Nat.eq_dec x i) as [->|Hne].
  - rewrite Hf, Hg. cbn. f_equal. apply filter_ext_len. intros a Ha. symmetry. apply H. congruence.
  - destruct Hi as [Hi|Hi]; [congruence|]. rewrite (H x) by auto. destruct (g x); cbn; rewrite IH; auto.
Qed.

Lemma seq_snoc n : seq 1 (S n) = seq 1 n ++ [S n].
Proof. rewrite seq_S. cbn. reflexivity. Qed.

(** An object that still has no id is initializing. *)
Lemma TInv_id_some s i a : TInv s -> valid s i -> o_id (s_store s i) = Some a ->
  o_initializing (s_store s i) = false /\ 1 <= a <= s_count s.
Proof.
  intros T Hv E. destruct (o_initializing (s_store s i)) eqn:Ei.
  - destruct (ti_init s T i Hv Ei). congruence.
  - destruct (ti_done s T i Hv Ei) as (a' & g & X & _ & Y & _). split; auto. rewrite E in X. injection X as <-. auto.
Qed.
Lemma TInv_gid_some s i g : TInv s -> valid s i -> o_gid (s_store s i) = Some g ->
  o_initializing (s_store s i) = false /\ 1 <= g <= s_gcount s.
Proof.
  intros T Hv E. destruct (o_initializing (s_store s i)) eqn:Ei.
  - destruct (ti_init s T i Hv Ei). congruence.
  - destruct (ti_done s T i Hv Ei) as (a' & g' & _ & X & _ & Y). split; auto. rewrite E in X. injection X as <-. auto.
Qed.

Lemma TInv_shape s s' : shape s s' -> TInv s -> TInv s'.
Proof.
  intros H T. pose proof T as [Tnd Tv Tiid Tin Tdo Tinj Tsu Tco].
  destruct H as [Hic Hc Hg Hsame Hnd Hincl
                |i Hvi Hic Hc Hg Hsame Hi Hi' Hcf Hid Hgid Htr
                |Hic Hc Hg Hsame Hiid Hi Hid Hgid Htr
                |Hic Hc Hg Hsame Hiid Hi Hid Hgid Htr].
  - constructor; unfold valid in *; rewrite ?Hic, ?Hc, ?Hg in *.
    + auto.
    + rewrite Forall_forall in *. auto.
    + intros i Hi. rewrite <- (ident_conf _ _ (Hsame i)). auto.
    + intros i Hi. rewrite <- (ident_init _ _ (Hsame i)), <- (ident_id _ _ (Hsame i)), <- (ident_gid _ _ (Hsame i)). auto.
    + intros i Hi. rewrite <- (ident_init _ _ (Hsame i)), <- (ident_id _ _ (Hsame i)), <- (ident_gid _ _ (Hsame i)). auto.
    + intros i j a Hi Hj. rewrite <- (ident_id _ _ (Hsame i)), <- (ident_id _ _ (Hsame j)). eauto.
    + intros a Ha. destruct (Tsu a Ha) as (i & Hi & E). exists i. rewrite <- (ident_id _ _ (Hsame i)). auto.
    + rewrite <- Tco. apply filter_ext_len. intros a _. rewrite (ident_init _ _ (Hsame a)). reflexivity.
  - constructor; unfold valid in *; rewrite ?Hic, ?Hc, ?Hg in *.
    + rewrite Htr. auto.
    + rewrite Htr. eapply Forall_impl; [|exact Tv]. cbn. lia.
    + intros j Hj. destruct (Nat.eq_dec j i) as [->|Hne]; [rewrite Hcf; auto|].
      rewrite <- (ident_conf _ _ (Hsame j Hne)). auto.
    + intros j Hj Ej. destruct (Nat.eq_dec j i) as [->|Hne]; [congruence|].
      pose proof (Hsame j Hne) as S'. rewrite <- (ident_init _ _ S') in Ej.
      rewrite <- (ident_id _ _ S'), <- (ident_gid _ _ S'). auto.
    + intros j Hj Ej. destruct (Nat.eq_dec j i) as [->|Hne].
      * exists (S (s_count s)), (S (s_gcount s)). repeat split; auto; lia.
      * pose proof (Hsame j Hne) as S'. rewrite <- (ident_init _ _ S') in Ej.
        destruct (Tdo j Hj Ej) as (a & g & A & B & C & D). exists a, g.
        rewrite <- (ident_id _ _ S'), <- (ident_gid _ _ S'). repeat split; auto; lia.
    + assert (Haux : forall j a, valid s j -> j <> i -> o_id (s_store s' j) = Some a -> a <= s_count s).
      { intros j a Hj Hne E. pose proof (Hsame j Hne) as S'. rewrite <- (ident_id _ _ S') in E.
        apply (TInv_id_some s j a T) in E; auto. lia. }
      intros j k a Hj Hk Ej Ek.
      destruct (Nat.eq_dec j i) as [->|Hne]; destruct (Nat.eq_dec k i) as [->|Hne']; auto.
      * apply Haux in Ek; auto. rewrite Hid in Ej. injection Ej as <-. lia.
      * apply Haux in Ej; auto. rewrite Hid in Ek. injection Ek as <-. lia.
      * rewrite <- (ident_id _ _ (Hsame j Hne)) in Ej. rewrite <- (ident_id _ _ (Hsame k Hne')) in Ek. eauto.
    + intros a Ha. destruct (Nat.eq_dec a (S (s_count s))) as [->|Hne]; [exists i; auto|].
      destruct (Tsu a ltac:(lia)) as (j & Hj & E). exists j. split; auto.
      destruct (Nat.eq_dec j i) as [->|Hne']; [|rewrite <- (ident_id _ _ (Hsame j Hne')); auto].
      destruct (Tin i Hvi Hi). congruence.
    + rewrite (filter_flip (fun j => negb (o_initializing (s_store s j))) _ i); auto.
      * apply seq_NoDup.
      * apply in_seq. lia.
      * rewrite Hi. reflexivity.
      * rewrite Hi'. reflexivity.
      * intros j Hne. rewrite (ident_init _ _ (Hsame j Hne)). reflexivity.
  - set (n := S (s_icount s)) in *.
    assert (Hold : forall j, valid s j -> j <> n) by (unfold valid; lia).
    assert (Hcase : forall j, 1 <= j <= n -> j = n \/ valid s j) by (unfold valid; lia).
    constructor; unfold valid in *; rewrite ?Hic, ?Hc, ?Hg in *.
    + rewrite Htr. apply sorted_snoc; auto. intros x C. rewrite Forall_forall in Tv. apply Tv in C. lia.
    + rewrite Htr. apply Forall_app. split; [eapply Forall_impl; [|exact Tv]; cbn; lia|]. constructor; [lia|constructor].
    + intros j Hj. destruct (Hcase j Hj) as [->|Hj']; auto. rewrite <- (ident_conf _ _ (Hsame j (Hold j Hj'))). auto.
    + intros j Hj. destruct (Hcase j Hj) as [->|Hj']; auto. pose proof (Hsame j (Hold j Hj')) as S'.
      rewrite <- (ident_init _ _ S'), <- (ident_id _ _ S'), <- (ident_gid _ _ S'). auto.
    + intros j Hj. destruct (Hcase j Hj) as [->|Hj']; [congruence|]. pose proof (Hsame j (Hold j Hj')) as S'.
      rewrite <- (ident_init _ _ S'), <- (ident_id _ _ S'), <- (ident_gid _ _ S'). auto.
    + intros j k a Hj Hk Ej Ek. destruct (Hcase j Hj) as [->|Hj']; [congruence|].
      destruct (Hcase k Hk) as [->|Hk']; [congruence|].
      rewrite <- (ident_id _ _ (Hsame j (Hold j Hj'))) in Ej. rewrite <- (ident_id _ _ (Hsame k (Hold k Hk'))) in Ek. eauto.
    + intros a Ha. destruct (Tsu a Ha) as (j & Hj & E). exists j. split; [lia|].
      rewrite <- (ident_id _ _ (Hsame j (Hold j Hj))). auto.
    + unfold n. rewrite seq_snoc, filter_app, app_length. cbn. fold n. rewrite Hi. cbn. rewrite Nat.add_0_r, <- Tco.
      apply filter_ext_len. intros a Ha. apply in_seq in Ha.
      rewrite (ident_init _ _ (Hsame a ltac:(lia))). reflexivity.
  - set (n := S (s_icount s)) in *.
    assert (Hold : forall j, valid s j -> j <> n) by (unfold valid; lia).
    assert (Hcase : forall j, 1 <= j <= n -> j = n \/ valid s j) by (unfold valid; lia).
    constructor; unfold valid in *; rewrite ?Hic, ?Hc, ?Hg in *.
    + rewrite Htr. apply sorted_snoc; auto. intros x C. rewrite Forall_forall in Tv. apply Tv in C. lia.
    + rewrite Htr. apply Forall_app. split; [eapply Forall_impl; [|exact Tv]; cbn; lia|]. constructor; [lia|constructor].
    + intros j Hj. destruct (Hcase j Hj) as [->|Hj']; auto. rewrite <- (ident_conf _ _ (Hsame j (Hold j Hj'))). auto.
    + intros j Hj. destruct (Hcase j Hj) as [->|Hj']; [congruence|]. pose proof (Hsame j (Hold j Hj')) as S'.
      rewrite <- (ident_init _ _ S'), <- (ident_id _ _ S'), <- (ident_gid _ _ S'). auto.
    + intros j Hj Ej. destruct (Hcase j Hj) as [->|Hj'].
      * exists (S (s_count s)), (S (s_gcount s)). repeat split; auto; lia.
      * pose proof (Hsame j (Hold j Hj')) as S'. rewrite <- (ident_init _ _ S') in Ej.
        destruct (Tdo j Hj' Ej) as (a & g & A & B & C & D). exists a, g.
        rewrite <- (ident_id _ _ S'), <- (ident_gid _ _ S'). repeat split; auto; lia.
    + assert (Haux : forall j a, valid s j -> o_id (s_store s' j) = Some a -> a <= s_count s).
      { intros j a Hj E. pose proof (Hsame j (Hold j Hj)) as S'. rewrite <- (ident_id _ _ S') in E.
        apply (TInv_id_some s j a T) in E; auto. lia. }
      intros j k a Hj Hk Ej Ek.
      destruct (Hcase j Hj) as [->|Hj']; destruct (Hcase k Hk) as [->|Hk']; auto.
      * apply Haux in Ek; auto. rewrite Hid in Ej. injection Ej as <-. lia.
      * apply Haux in Ej; auto. rewrite Hid in Ek. injection Ek as <-. lia.
      * rewrite <- (ident_id _ _ (Hsame j (Hold j Hj'))) in Ej. rewrite <- (ident_id _ _ (Hsame k (Hold k Hk'))) in Ek. eauto.
    + intros a Ha. destruct (Nat.eq_dec a (S (s_count s))) as [->|Hne]; [exists n; split; [lia|auto]|].
      destruct (Tsu a ltac:(lia)) as (j & Hj & E). exists j. split; [lia|].
      rewrite <- (ident_id _ _ (Hsame j (Hold j Hj))); auto.
    + unfold n. rewrite seq_snoc, filter_app, app_length. cbn. fold n. rewrite Hi. cbn. rewrite Nat.add_1_r, <- Tco. f_equal.
      apply filter_ext_len. intros a Ha. apply in_seq in Ha.
      rewrite (ident_init _ _ (Hsame a ltac:(lia))). reflexivity.
Qed.

(** The invariant of the whole process. *)
Record WInv (w : world FO) : Prop := {
  wi_t : forall k, TInv (focus w k);
  wi_ginj : forall k i k' i' g, created w k i -> created w k' i' ->
     o_gid (obj w k i) = Some g -> o_gid (obj w k' i') = Some g -> k = k' /\ i = i';
  wi_gsurj : forall g, 1 <= g <= w_gcount w -> exists k i, created w k i /\ o_gid (obj w k i) = Some g
}.

Lemma focus_unfocus w k (s : st) : focus (unfocus w k s) k = s.
Proof. unfold focus, unfocus. cbn. rewrite upd_same. destruct s; reflexivity. Qed.
Lemma focus_unfocus_other w k (s : st) k' : k' <> k ->
  focus (unfocus w k s) k' =
  MkSt (s_heap s) (s_gcount s) (s_store (focus w k')) (s_tracked (focus w k')) (s_count (focus w k')) (s_icount (focus w k')).
Proof. intros H. unfold focus, unfocus. cbn. rewrite upd_other by auto. reflexivity. Qed.

Lemma created_unfocus (w : world FO) k (s : st) k' i : created (unfocus w k s) k' i <->
  if Nat.eqb k' k then valid s i else created w k' i.
Proof.
  unfold created, unfocus, valid. cbn. destruct (Nat.eqb_spec k' k) as [->|H].
  - rewrite upd_same. reflexivity.
  - rewrite upd_other by auto. reflexivity.
Qed.
Lemma obj_unfocus (w : world FO) k (s : st) k' i : obj (unfocus w k s) k' i = if Nat.eqb k' k then s_store s i else obj w k' i.
Proof.
  unfold obj, unfocus. cbn. destruct (Nat.eqb_spec k' k) as [->|H].
  - rewrite upd_same. reflexivity.
  - rewrite upd_other by auto. reflexivity.
Qed.

Lemma TInv_gcount (s : st) h g : TInv s -> s_gcount s <= g ->
  TInv (MkSt h g (s_store s) (s_tracked s) (s_count s) (s_icount s)).
Proof.
  intros [? ? ? ? D ? ? ?] Hg. constructor; cbn; auto.
  intros i Hi E. destruct (D i Hi E) as (a & g' & A & B & C & F). exists a, g'. cbn. repeat split; auto; lia.
Qed.

Lemma shape_gcount s s' : shape s s' -> s_gcount s <= s_gcount s'.
Proof. destruct 1; lia. Qed.

Lemma WInv_prim cf w k s s' : prim cf s s' -> WInv (unfocus w k s) -> WInv (unfocus w k s').
Proof.
  intros Hp W. apply prim_shape in Hp.
  pose proof (wi_t _ W k) as Tk. rewrite focus_unfocus in Tk.
  assert (Tk' : TInv s') by (eapply TInv_shape; eauto).
  assert (Hgc := shape_gcount _ _ Hp).
  (* gid bounds for the other trackers *)
  assert (Hoth : forall k' i g, k' <> k -> created w k' i -> o_gid (obj w k' i) = Some g -> 1 <= g <= s_gcount s).
  { intros k' i g Hk Hcr E. pose proof (wi_t _ W k') as T. rewrite focus_unfocus_other in T by auto.
    assert (Hcr' := Hcr). apply (TInv_gid_some _ i g T) in E; auto. apply E. }
  constructor.
  - intros k'. destruct (Nat.eq_dec k' k) as [->|Hne]; [rewrite focus_unfocus; auto|].
    rewrite focus_unfocus_other by auto. pose proof (wi_t _ W k') as T. rewrite focus_unfocus_other in T by auto.
    apply (TInv_gcount _ (s_heap s') (s_gcount s')) in T; [exact T|exact Hgc].
  - assert (Gk : forall i g, valid s' i -> o_gid (s_store s' i) = Some g ->
       (valid s i /\ o_gid (s_store s i) = Some g) \/ g = S (s_gcount s)).
    { intros i g Hi E. destruct Hp as [Hic Hc Hg Hsame Hnd Hincl
                |i0 Hvi Hic Hc Hg Hsame Hi0 Hi' Hcf Hid Hgid Htr
                |Hic Hc Hg Hsame Hiid Hi0 Hid Hgid Htr
                |Hic Hc Hg Hsame Hiid Hi0 Hid Hgid Htr]; unfold valid in *; rewrite Hic in Hi.
      - left. split; [lia|]. rewrite (ident_gid _ _ (Hsame i)). auto.
      - destruct (Nat.eq_dec i i0) as [->|Hne]; [right; congruence|].
        left. split; [lia|]. rewrite (ident_gid _ _ (Hsame i Hne)). auto.
      - destruct (Nat.eq_dec i (S (s_icount s))) as [->|Hne]; [congruence|].
        left. split; [lia|]. rewrite (ident_gid _ _ (Hsame i Hne)). auto.
      - destruct (Nat.eq_dec i (S (s_icount s))) as [->|Hne]; [right; congruence|].
        left. split; [lia|]. rewrite (ident_gid _ _ (Hsame i Hne)). auto. }
    assert (Gu : forall i i', valid s' i -> valid s' i' -> o_gid (s_store s' i) = Some (S (s_gcount s)) ->
       o_gid (s_store s' i') = Some (S (s_gcount s)) -> i = i').
    { assert (Hno : forall i, valid s i -> o_gid (s_store s i) <> Some (S (s_gcount s))).
      { intros i Hi E. apply (TInv_gid_some s i _ Tk) in E; auto. lia. }
      intros i i' Hi Hi' E E'. destruct Hp as [Hic Hc Hg Hsame Hnd Hincl
                |i0 Hvi Hic Hc Hg Hsame Hi0 Hi1 Hcf Hid Hgid Htr
                |Hic Hc Hg Hsame Hiid Hi0 Hid Hgid Htr
                |Hic Hc Hg Hsame Hiid Hi0 Hid Hgid Htr]; unfold valid in *; rewrite Hic in Hi, Hi'.
      - exfalso. apply (Hno i Hi). rewrite (ident_gid _ _ (Hsame i)). auto.
      - assert (A : forall j, 1 <= j <= s_icount s -> o_gid (s_store s' j) = Some (S (s_gcount s)) -> j = i0).
        { intros j Hj Ej. destruct (Nat.eq_dec j i0) as [|Hne]; auto. exfalso.
          apply (Hno j Hj). rewrite (ident_gid _ _ (Hsame j Hne)). auto. }
        rewrite (A i), (A i'); auto.
      - exfalso. destruct (Nat.eq_dec i (S (s_icount s))) as [->|Hne]; [congruence|].
        apply (Hno i ltac:(lia)). rewrite (ident_gid _ _ (Hsame i Hne)). auto.
      - assert (A : forall j, 1 <= j <= S (s_icount s) -> o_gid (s_store s' j) = Some (S (s_gcount s)) -> j = S (s_icount s)).
        { intros j Hj Ej. destruct (Nat.eq_dec j (S (s_icount s))) as [|Hne]; auto. exfalso.
          apply (Hno j ltac:(lia)). rewrite (ident_gid _ _ (Hsame j Hne)). auto. }
        rewrite (A i), (A i'); auto. }
    intros k1 i1 k2 i2 g C1 C2 E1 E2.
    rewrite created_unfocus in C1, C2. rewrite obj_unfocus in E1, E2.
    assert (WI : forall k1 i1 k2 i2 g,
       (if Nat.eqb k1 k then valid s i1 else created w k1 i1) ->
       (if Nat.eqb k2 k then valid s i2 else created w k2 i2) ->
       o_gid (if Nat.eqb k1 k then s_store s i1 else obj w k1 i1) = Some g ->
       o_gid (if Nat.eqb k2 k then s_store s i2 else obj w k2 i2) = Some g -> k1 = k2 /\ i1 = i2).
    { intros a b c d g' A B C D. apply (wi_ginj _ W a b c d g').
      - apply created_unfocus; auto. - apply created_unfocus; auto.
      - rewrite obj_unfocus; auto. - rewrite obj_unfocus; auto. }
    destruct (Nat.eqb_spec k1 k) as [->|N1]; destruct (Nat.eqb_spec k2 k) as [->|N2].
    + split; auto. destruct (Gk i1 g C1 E1) as [[V1 G1]| ->].
      * destruct (Gk i2 g C2 E2) as [[V2 G2]| ->].
        -- specialize (WI k i1 k i2 g). rewrite Nat.eqb_refl in WI. destruct WI; auto.
        -- apply (TInv_gid_some s i1 _ Tk V1) in G1. lia.
      * apply Gu; auto.
    + exfalso. pose proof (Hoth k2 i2 g N2 C2 E2).
      destruct (Gk i1 g C1 E1) as [[V1 G1]| ->]; [|lia].
      specialize (WI k i1 k2 i2 g). rewrite Nat.eqb_refl in WI. apply Nat.eqb_neq in N2 as N2'. rewrite N2' in WI.
      destruct WI; auto.
    + exfalso. pose proof (Hoth k1 i1 g N1 C1 E1).
      destruct (Gk i2 g C2 E2) as [[V1 G1]| ->]; [|lia].
      specialize (WI k1 i1 k i2 g). rewrite Nat.eqb_refl in WI. apply Nat.eqb_neq in N1 as N1'. rewrite N1' in WI.
      destruct WI; auto.
    + specialize (WI k1 i1 k2 i2 g). apply Nat.eqb_neq in N1 as N1', N2 as N2'. rewrite N1', N2' in WI. auto.
  - cbn. intros g Hg.
    assert (WS : forall g, 1 <= g <= s_gcount s -> exists k' i, (if Nat.eqb k' k then valid s i else created w k' i)
        /\ o_gid (if Nat.eqb k' k then s_store s i else obj w k' i) = Some g).
    { intros g' Hg'. destruct (wi_gsurj _ W g') as (k' & i & A & B); [cbn; auto|].
      exists k', i. rewrite created_unfocus in A. rewrite obj_unfocus in B. auto. }
    assert (HS : forall g', 1 <= g' <= s_gcount s -> exists k' i, created (unfocus w k s') k' i /\ o_gid (obj (unfocus w k s') k' i) = Some g').
    { intros g' Hg'. destruct (WS g' Hg') as (k' & i & A & B). exists k', i. rewrite created_unfocus, obj_unfocus.
      destruct (Nat.eqb_spec k' k) as [->|Hne]; auto.
      destruct Hp as [Hic Hc Hgg Hsame Hnd Hincl
                |i0 Hvi Hic Hc Hgg Hsame Hi0 Hi1 Hcf Hid Hgid Htr
                |Hic Hc Hgg Hsame Hiid Hi0 Hid Hgid Htr
                |Hic Hc Hgg Hsame Hiid Hi0 Hid Hgid Htr]; unfold valid in *; rewrite Hic; (split; [lia|]).
      - rewrite <- (ident_gid _ _ (Hsame i)). auto.
      - destruct (Nat.eq_dec i i0) as [->|Hne]; [|rewrite <- (ident_gid _ _ (Hsame i Hne)); auto].
        destruct (ti_init s Tk i0 Hvi Hi0). congruence.
      - rewrite <- (ident_gid _ _ (Hsame i ltac:(lia))); auto.
      - rewrite <- (ident_gid _ _ (Hsame i ltac:(lia))); auto. }
    assert (Hcases : 1 <= g <= s_gcount s \/ (s_gcount s' = S (s_gcount s) /\ g = s_gcount s')).
    { destruct Hp; lia. }
    destruct Hcases as [Hold|[En ->]]; [auto|]. exists k.
    destruct Hp as [Hic Hc Hgg Hsame Hnd Hincl
                |i0 Hvi Hic Hc Hgg Hsame Hi0 Hi1 Hcf Hid Hgid Htr
                |Hic Hc Hgg Hsame Hiid Hi0 Hid Hgid Htr
                |Hic Hc Hgg Hsame Hiid Hi0 Hid Hgid Htr]; try lia.
    + exists i0. rewrite created_unfocus, obj_unfocus, Nat.eqb_refl. unfold valid in *. rewrite Hic. split; [lia|]. congruence.
    + exists (S (s_icount s)). rewrite created_unfocus, obj_unfocus, Nat.eqb_refl. unfold valid. rewrite Hic. split; [lia|]. congruence.
Qed.

Lemma WInv_prims cf w k s s' : prims cf s s' -> WInv (unfocus w k s) -> WInv (unfocus w k s').
Proof. induction 1; auto. intros. apply IHprims. eapply WInv_prim; eauto. Qed.

Lemma WInv_ext (w w' : world FO) : w_gcount w = w_gcount w' -> (forall k, w_trackers w k = w_trackers w' k) -> WInv w -> WInv w'.
Proof.
  intros Hg Ht [W1 W2 W3].
  assert (Hcr : forall k i, created w k i <-> created w' k i) by (intros; unfold created; rewrite Ht; reflexivity).
  assert (Ho : forall k i, obj w k i = obj w' k i) by (intros; unfold obj; rewrite Ht; reflexivity).
  constructor.
  - intros k. specialize (W1 k). apply (TInv_gcount _ (w_heap w') (w_gcount w)) in W1; [|auto].
    unfold focus in *. cbn in W1. rewrite <- Ht, <- Hg. exact W1.
  - intros. eapply W2; rewrite ?Hcr, ?Ho; eauto.
  - intros g H. rewrite <- Hg in H. destruct (W3 g H) as (k & i & A & B). exists k, i. rewrite <- Hcr, <- Ho. auto.
Qed.

Lemma unfocus_focus_ext (w : world FO) k k' : w_trackers (unfocus w k (focus w k)) k' = w_trackers w k'.
Proof.
  cbn. destruct (Nat.eq_dec k' k) as [->|H]; [rewrite upd_same|rewrite upd_other by auto; reflexivity].
  destruct (w_trackers w k); reflexivity.
Qed.

Lemma exec_prims conf w k dets p ct : WInv w ->
  exists s', prims (conf k) (focus w k) s' /\ fst (exec conf w (OpUpdate k dets p ct)) = unfocus w k s'
    /\ s' = fst (update (conf k) dets p ct (focus w k)).
Proof.
  intros W. exists (fst (update (conf k) dets p ct (focus w k))). split; [|split; [|reflexivity]].
  - apply update_prims. apply (ti_valid _ (wi_t _ W k)).
  - cbn. destruct (update (conf k) dets p ct (focus w k)). reflexivity.
Qed.

Lemma WInv_exec conf w o : WInv w -> WInv (fst (exec conf w o)).
Proof.
  intros W. destruct o as [r d|k dets p ct].
  - eapply WInv_ext; [| |exact W]; cbn; auto.
  - destruct (exec_prims conf w k dets p ct W) as (s' & H & -> & _).
    eapply WInv_prims; [exact H|]. eapply WInv_ext; [| |exact W]; auto. intros; symmetry; apply unfocus_focus_ext.
Qed.

Lemma WInv_run conf ops : forall w, WInv w -> WInv (run conf w ops).
Proof. induction ops; intros w W; cbn; auto. apply IHops. apply WInv_exec; auto. Qed.

Lemma WInv_init h dummy : WInv (init_world h dummy).
Proof.
  constructor.
  - intros k. constructor; cbn; try (unfold valid; cbn; intros; lia); try constructor.
  - unfold created; cbn. intros; lia.
  - cbn. lia.
Qed.

Theorem WInv_reachable conf w : reachable conf w -> WInv w.
Proof. intros (h & d & ops & ->). apply WInv_run, WInv_init. Qed.

(* ---- evolution of one object through further operations ---- *)
Record evolves (o o' : tobj) : Prop := {
  ev_conf : o_conf o' = o_conf o;
  ev_init : o_initializing o = false -> o_initializing o' = false;
  ev_id : forall a, o_id o = Some a -> o_id o' = Some a;
  ev_gid : forall g, o_gid o = Some g -> o_gid o' = Some g
}.
Lemma evolves_refl (o : tobj) : evolves o o.
Proof. constructor; auto. Qed.
Lemma evolves_trans (a b c : tobj) : evolves a b -> evolves b c -> evolves a c.
Proof. intros [? ? ? ?] [? ? ? ?]. constructor; auto. congruence. Qed.
Lemma evolves_ident (o o' : tobj) : same_ident o o' -> evolves o o'.
Proof. intros (A & B & C & D). constructor; intros; congruence. Qed.

Lemma prim_evolves cf s s' i : prim cf s s' -> TInv s -> valid s i ->
  evolves (s_store s i) (s_store s' i) /\ valid s' i.
Proof.
  intros H T Hv. apply prim_shape in H. unfold valid in *.
  destruct H as [Hic Hc Hg Hsame Hnd Hincl
                |i0 Hvi Hic Hc Hg Hsame Hi0 Hi1 Hcf Hid Hgid Htr
                |Hic Hc Hg Hsame Hiid Hi0 Hid Hgid Htr
                |Hic Hc Hg Hsame Hiid Hi0 Hid Hgid Htr]; rewrite Hic; (split; [|lia]).
  - apply evolves_ident; auto.
  - destruct (Nat.eq_dec i i0) as [->|Hne]; [|apply evolves_ident; auto].
    destruct (ti_init s T i0 Hvi Hi0). constructor; intros; congruence.
  - apply evolves_ident. apply Hsame. lia.
  - apply evolves_ident. apply Hsame. lia.
Qed.
Lemma prims_evolves cf s s' i : prims cf s s' -> TInv s -> valid s i ->
  evolves (s_store s i) (s_store s' i) /\ valid s' i.
Proof.
  induction 1 as [s|s s1 s2 H1 H2 IH]; intros T Hv; [split; [apply evolves_refl|auto]|].
  destruct (prim_evolves _ _ _ _ H1 T Hv) as [A B].
  destruct IH as [C D]; auto. { eapply TInv_shape; [eapply prim_shape; eauto|auto]. }
  split; auto. eapply evolves_trans; eauto.
Qed.
Lemma prim_count cf (s s' : st) : prim cf s s' -> s_count s <= s_count s'.
Proof. intros H. apply prim_shape in H. destruct H; lia. Qed.
Lemma prims_count cf (s s' : st) : prims cf s s' -> s_count s <= s_count s'.
Proof. induction 1; auto. apply prim_count in H. lia. Qed.

Theorem run_evolves conf ops : forall w k i, WInv w -> created w k i ->
  evolves (obj w k i) (obj (run conf w ops) k i) /\ created (run conf w ops) k i
  /\ p_count (w_trackers w k) <= p_count (w_trackers (run conf w ops) k).
Proof.
  induction ops as [|o ops IH]; intros w k i W Hc; cbn.
  - split; [apply evolves_refl|auto].
  - assert (H : evolves (obj w k i) (obj (fst (exec conf w o)) k i) /\ created (fst (exec conf w o)) k i
       /\ p_count (w_trackers w k) <= p_count (w_trackers (fst (exec conf w o)) k)).
    { destruct o as [r d|k' dets p ct].
      - cbn. split; [apply evolves_refl|auto].
      - destruct (exec_prims conf w k' dets p ct W) as (s' & H & -> & _).
        rewrite obj_unfocus, created_unfocus. cbn [w_trackers unfocus]. destruct (Nat.eqb_spec k k') as [->|Hne].
        + rewrite upd_same. cbn [p_count]. destruct (prims_evolves _ _ _ i H (wi_t _ W k')) as [A B]; auto. split; auto. split; auto.
          apply (prims_count _ _ _ H).
        + rewrite upd_other by auto. split; [apply evolves_refl|auto]. }
    destruct H as (A & B & C). destruct (IH (fst (exec conf w o)) k i) as (D & E & F); auto.
    { apply WInv_exec; auto. }
    split; [eapply evolves_trans; eauto|]. split; auto. lia.
Qed.
End Identity.

(** Hits, and merges, of different objects can be made in any order.  Used for C92. *)
From Coq Require Import ZArith Bool Arith String List Lia Permutation.
From Verif Require Import Model.Num Model.Base Model.Matching Model.Filter Model.Tracker Spec.CallSpec Spec.ExampleVideo Spec.LabelSpec
  Proofs.TrackerFrame Proofs.Identity Proofs.Effect Proofs.LabelSim Proofs.OrderLocal.
Import ListNotations.

Section Seq.
Context {N : Num} {FO : filter_ops N}.
Notation st := (st FO).

Ltac core E := match type of E with anonymous ?a = anonymous ?b =>
  destruct a as [[? ? ? ? ? ? ? ? ? ? ?] ? ? ? ? ? ? ? ? ? ? ? ? ? ?], b as [[? ? ? ? ? ? ? ? ? ? ?] ? ? ? ? ? ? ? ? ? ? ? ? ? ?];
  unfold anonymous, anonymous_conf in E; cbn in E; injection E; clear E; intros; subst end.

Section Items.
Context {Z : Type}.
Variable zP : Z -> list (nat * nat).
Variable zF : Z -> list nat.
Variable step1 step2 : Z -> st -> st -> Prop.
Variable X : Z -> st -> Prop.

Definition Ag (z : Z) (s t : st) : Prop := forall i j, In (i, j) (zP z) -> loc (zF z) i j s t.
Definition apart_items (z z' : Z) : Prop :=
  (forall x, In x (map fst (zP z)) -> ~ In x (map fst (zP z'))) /\
  (forall x, In x (map snd (zP z)) -> ~ In x (map snd (zP z'))) /\
  (forall x, In x (zF z) -> ~ In x (zF z')).

Inductive run (step : Z -> st -> st -> Prop) : list Z -> st -> st -> Prop :=
| run_nil s : run step [] s s
| run_cons z l s s1 s' : step z s s1 -> run step l s1 s' -> run step (z :: l) s s'.

Hypothesis own : forall z s s' t, Ag z s t -> X z t -> step1 z s s' -> exists t', step2 z t t' /\ Ag z s' t'.
Hypothesis out1 : forall z s s' t, Ag z s t -> step1 z s s' -> outside (map fst (zP z)) (zF z) s s'.
Hypothesis out2 : forall z s t t', Ag z s t -> step2 z t t' -> outside (map snd (zP z)) (zF z) t t'.
Hypothesis X_other : forall z z' s t t', Ag z s t -> step2 z t t' -> apart_items z z' -> X z' t -> X z' t'.

Lemma apart_sym z z' : apart_items z z' -> apart_items z' z.
Proof. intros (A & B & C). split; [|split]; intros x H1 H2; [eapply A|eapply B|eapply C]; eauto. Qed.
Lemma Ag_frame1 z z' s s' t : apart_items z z' -> outside (map fst (zP z)) (zF z) s s' -> Ag z' s t -> Ag z' s' t.
Proof.
  intros (A & _ & C) [Os Oh] G i j Hij. destruct (G i j Hij) as [L1 L2 L3].
  assert (E : s_store s' i = s_store s i) by (apply Os; intros H; apply (A i H); apply (in_map fst) in Hij; exact Hij).
  split; rewrite ?E; auto. intros q Hq. rewrite Oh; auto. intros H. exact (C q H Hq).
Qed.
Lemma Ag_frame2 z z' s t t' : apart_items z z' -> outside (map snd (zP z)) (zF z) t t' -> Ag z' s t -> Ag z' s t'.
Proof.
  intros (_ & A & C) [Os Oh] G i j Hij. destruct (G i j Hij) as [L1 L2 L3].
  assert (E : s_store t' j = s_store t j) by (apply Os; intros H; apply (A j H); apply (in_map snd) in Hij; exact Hij).
  split; rewrite ?E; auto. intros q Hq. rewrite Oh; auto. intros H. exact (C q H Hq).
Qed.

(** Every item agrees with some other state. *)
Definition ready1 (z : Z) (s : st) : Prop := exists t, Ag z s t /\ X z t.

Lemma one_of_many l : forall s s', run step1 l s s' -> NoDup l ->
  (forall z z', In z l -> In z' l -> z <> z' -> apart_items z z') -> (forall z, In z l -> ready1 z s) ->
  outside (flat_map (fun z => map fst (zP z)) l) (flat_map zF l) s s' /\
  forall z t, In z l -> Ag z s t -> X z t -> exists t', step2 z t t' /\ Ag z s' t'.
Proof.
  induction l as [|z0 l IH]; intros s s' R Nd Ap Rd; inversion R as [|? ? ? s1 ? H1 H2]; subst.
  - split; [split; auto|intros z t []].
  - inversion Nd as [|? ? Hn Nd']; subst. destruct (Rd z0 (or_introl eq_refl)) as (t0 & G0 & X0). pose proof (out1 _ _ _ _ G0 H1) as O1.
    assert (Ne : forall z, In z l -> apart_items z0 z).
    { intros z Hz. apply Ap; [left; reflexivity|right; exact Hz|]. intros ->. exact (Hn Hz). }
    destruct (IH s1 s' H2 Nd') as [O2 K].
    { intros z z' Hz Hz'. apply Ap; right; assumption. }
    { intros z Hz. destruct (Rd z (or_intror Hz)) as (t & G & Xt). exists t. split; [|exact Xt]. eapply Ag_frame1; eauto. }
    split.
    + destruct O1 as [A1 A2], O2 as [B1 B2]. split; intros x Hx; cbn in Hx; rewrite in_app_iff in Hx.
      * rewrite B1, A1; tauto. * rewrite B2, A2; tauto.
    + intros z t [<-|Hz] G Xt.
      * destruct (own z0 s s1 t G Xt H1) as (t' & S2 & G'). exists t'. split; [exact S2|].
        clear - G' O2 Ne. intros i j Hij. destruct (G' i j Hij) as [L1 L2 L3].
        assert (E : s_store s' i = s_store s1 i).
        { apply (ou_store _ _ _ _ O2). intros H. apply in_flat_map in H as (z & Hz & H). apply (proj1 (Ne z Hz) i); [apply (in_map fst) in Hij; exact Hij|exact H]. }
        split; rewrite ?E; auto. intros q Hq. rewrite (ou_heap _ _ _ _ O2); auto. intros H. apply in_flat_map in H as (z & Hz & H).
        exact (proj2 (proj2 (Ne z Hz)) q Hq H).
      * apply (K z t Hz); [|exact Xt]. eapply Ag_frame1; eauto.
Qed.

Lemma in_any_order l s s' : run step1 l s s' -> NoDup l ->
  (forall z z', In z l -> In z' l -> z <> z' -> apart_items z z') ->
  forall l' t, Permutation l l' -> (forall z, In z l -> Ag z s t /\ X z t) ->
  exists t', run step2 l' t t' /\ (forall z, In z l -> Ag z s' t') /\
    outside (flat_map (fun z => map fst (zP z)) l) (flat_map zF l) s s' /\
    outside (flat_map (fun z => map snd (zP z)) l') (flat_map zF l') t t'.
Proof.
  intros R Nd Ap l' t Pm G0.
  destruct (one_of_many l s s' R Nd Ap) as [O K]. { intros z Hz. destruct (G0 z Hz). exists t. auto. }
  assert (Hin : forall z, In z l' -> In z l) by (intros z; apply Permutation_in, Permutation_sym, Pm).
  assert (Nd' : NoDup l') by (eapply Permutation_NoDup; eauto).
  assert (Step : forall l' t D, NoDup (D ++ l') -> incl (D ++ l') l -> (forall z, In z l' -> Ag z s t /\ X z t) -> (forall z, In z D -> Ag z s' t) ->
    exists t', run step2 l' t t' /\ (forall z, In z (D ++ l') -> Ag z s' t') /\ outside (flat_map (fun z => map snd (zP z)) l') (flat_map zF l') t t').
  { clear - own out2 X_other Ap K. induction l' as [|z0 l' IH]; intros t D Nd Il G0 GD.
    - exists t. rewrite app_nil_r in *. split; [constructor|]. split; [exact GD|split; auto].
    - destruct (G0 z0 (or_introl eq_refl)) as [Gz Xz].
      assert (Hz0 : In z0 l) by (apply Il, in_app_iff; right; left; reflexivity).
      destruct (K z0 t Hz0 Gz Xz) as (t1 & S2 & G1).
      pose proof (out2 _ _ _ _ Gz S2) as O2.
      assert (Nd2 : NoDup (z0 :: D ++ l')) by (apply (NoDup_Add (Add_app z0 D l')) in Nd; constructor; tauto).
      assert (Ne : forall z, In z (D ++ l') -> apart_items z0 z).
      { intros z Hz. apply Ap; [exact Hz0|apply Il|]; [rewrite in_app_iff in *; cbn; tauto|]. intros ->. inversion Nd2; auto. }
      destruct (IH t1 (D ++ [z0])) as (t' & R' & G' & O').
      + rewrite <- app_assoc. exact Nd.
      + rewrite <- app_assoc. exact Il.
      + intros z Hz. destruct (G0 z (or_intror Hz)) as [Ga Xa]. assert (Hz' : In z (D ++ l')) by (apply in_app_iff; auto).
        split; [exact (Ag_frame2 z0 z s t t1 (Ne z Hz') O2 Ga)|exact (X_other z0 z s t t1 Gz S2 (Ne z Hz') Xa)].
      + intros z Hz. apply in_app_iff in Hz as [Hz|[<-|[]]]; [|exact G1]. eapply Ag_frame2; [apply Ne, in_app_iff; left; exact Hz|exact O2|apply GD, Hz].
      + exists t'. split; [econstructor; eauto|]. rewrite <- app_assoc in G'. split; [exact G'|].
        destruct O2 as [A1 A2], O' as [B1 B2]. split; intros x Hx; cbn in Hx; rewrite in_app_iff in Hx.
        * rewrite B1, A1; tauto. * rewrite B2, A2; tauto. }
  destruct (Step l' t []) as (t' & R' & G' & O'); auto.
  { intros z []. }
  exists t'. split; [exact R'|]. split; [|split; assumption]. intros z Hz. apply G'. eapply Permutation_in; eauto.
Qed.
End Items.

(** ** Hits *)
(** Object of one tracker, object of the other, detection, distance, and the past detections of the object. *)
Definition hitem : Type := nat * nat * nat * dval N * list nat.
Definition hi_i (z : hitem) : nat := let '(i, _, _, _, _) := z in i.
Definition hi_j (z : hitem) : nat := let '(_, j, _, _, _) := z in j.
Definition hi_1 (z : hitem) : nat * nat * dval N := let '(i, _, r, d, _) := z in (i, r, d).
Definition hi_2 (z : hitem) : nat * nat * dval N := let '(_, j, r, d, _) := z in (j, r, d).
Definition hi_P (z : hitem) : list (nat * nat) := [(hi_i z, hi_j z)].
Definition hi_F (z : hitem) : list nat := let '(_, _, r, _, F) := z in r :: F.
Definition hstep (p : Z) (x : nat * nat * dval N) (s s' : st) : Prop :=
  exists s1 u, hit (h_obj x) (h_det x) p s = (s1, Ret u) /\ s' = mod_obj (h_obj x) (set_last_distance (Some (h_dist x))) s1.
Definition hstep1 p (z : hitem) := hstep p (hi_1 z).
Definition hstep2 p (z : hitem) := hstep p (hi_2 z).

Lemma hits_run p (f : hitem -> nat * nat * dval N) l : forall s s', run (fun z => hstep p (f z)) l s s' <-> hits p (map f l) s s'.
Proof.
  induction l as [|z l IH]; intros s s'; split; intros R; inversion R; subst; try constructor.
  - match goal with H : hstep _ _ _ _ |- _ => destruct H as (s2 & u & E & ->) end. cbn. destruct (f z) as [[i r] d]. econstructor; [exact E|]. apply IH. assumption.
  - cbn in *. econstructor; [|apply IH; eassumption]. unfold hstep. match goal with H : _ = f z |- _ => rewrite <- H end. cbn. eauto.
Qed.

Lemma hi_own p z s s' t : Ag hi_P hi_F z s t -> True -> hstep1 p z s s' -> exists t', hstep2 p z t t' /\ Ag hi_P hi_F z s' t'.
Proof.
  destruct z as [[[[i j] r] d] F]. intros G _ (s1 & u & E & ->). cbn in E. specialize (G i j (or_introl eq_refl)). cbn in G.
  destruct (loc_hit (r :: F) i j r p s t (or_introl eq_refl) G) as [E2 G2]. rewrite E in E2, G2. cbn in E2, G2. unfold hstep2, hstep. cbn.
  destruct (hit j r p t) as [t1 [u'|e]] eqn:Et; cbn in E2, G2; [|discriminate]. eexists. split; [eauto|].
  intros i' j' [X|[]]. injection X as <- <-. cbn. apply loc_obj; auto; cbn.
  - pose proof (lc_obj _ _ _ _ _ G2) as Ea. clear - Ea. core Ea. reflexivity.
  - exact (lc_past _ _ _ _ _ G2).
Qed.
Lemma hi_out1 p z s s' t : Ag hi_P hi_F z s t -> hstep1 p z s s' -> outside (map fst (hi_P z)) (hi_F z) s s'.
Proof.
  destruct z as [[[[i j] r] d] F]. intros _ (s1 & u & E & ->). cbn in E |- *. apply (hit_outside i r p s s1 u (r :: F)) in E; [|left; reflexivity].
  destruct E as [A B]. split; auto. intros k Hk. cbn. rewrite upd_other; auto. intros ->. apply Hk. left. reflexivity.
Qed.
Lemma hi_out2 p z s t t' : Ag hi_P hi_F z s t -> hstep2 p z t t' -> outside (map snd (hi_P z)) (hi_F z) t t'.
Proof.
  destruct z as [[[[i j] r] d] F]. intros _ (s1 & u & E & ->). cbn in E |- *. apply (hit_outside j r p t s1 u (r :: F)) in E; [|left; reflexivity].
  destruct E as [A B]. split; auto. intros k Hk. cbn. rewrite upd_other; auto. intros ->. apply Hk. left. reflexivity.
Qed.

Theorem hits_any_order p l l' (s s' t : st) : hits p (map hi_1 l) s s' -> NoDup l ->
  (forall z z', In z l -> In z' l -> z <> z' -> apart_items hi_P hi_F z z') ->
  Permutation l l' -> (forall z, In z l -> loc (hi_F z) (hi_i z) (hi_j z) s t) ->
  exists t', hits p (map hi_2 l') t t' /\ (forall z, In z l -> loc (hi_F z) (hi_i z) (hi_j z) s' t') /\
    outside (map hi_i l) (flat_map hi_F l) s s' /\ outside (map hi_j l') (flat_map hi_F l') t t'.
Proof.
  intros R Nd Ap Pm G. apply hits_run in R.
  destruct (in_any_order hi_P hi_F (hstep1 p) (hstep2 p) (fun _ _ => True)
    (hi_own p) (hi_out1 p) (hi_out2 p) ltac:(auto) l s s' R Nd Ap l' t Pm) as (t' & R' & G' & O1 & O2).
  { intros z Hz. split; [|exact I]. intros i j [E|[]]. injection E as <- <-. apply G, Hz. }
  exists t'. split; [apply hits_run; exact R'|]. split; [intros z Hz; apply (G' z Hz); left; reflexivity|].
  assert (E1 : forall f : hitem -> nat, forall l, flat_map (fun z => [f z]) l = map f l) by (clear; induction l as [|z l IH]; cbn; congruence).
  split; [rewrite <- (E1 hi_i l); exact O1|rewrite <- (E1 hi_j l'); exact O2].
Qed.

(** ** Merges *)
(** Surviving object and merged object of one tracker, of the other, distance, footprint. *)
Definition mitem : Type := nat * nat * nat * nat * dval N * list nat.
Definition mi_1 (z : mitem) : nat * nat * dval N := let '(i, k, _, _, d, _) := z in (i, k, d).
Definition mi_2 (z : mitem) : nat * nat * dval N := let '(_, _, j, l, d, _) := z in (j, l, d).
Definition mi_P (z : mitem) : list (nat * nat) := let '(i, k, j, l, _, _) := z in [(i, j); (k, l)].
Definition mi_F (z : mitem) : list nat := let '(_, _, _, _, _, F) := z in F.
Definition mstep (x : nat * nat * dval N) (s s' : st) : Prop :=
  exists s1 u, merge (h_obj x) (h_det x) s = (s1, Ret u) /\ In (h_det x) (s_tracked s1) /\ s' = s_set_tracked (remove_first (h_det x) (s_tracked s1)) s1.
Definition mstep1 (z : mitem) := mstep (mi_1 z).
Definition mstep2 (z : mitem) := mstep (mi_2 z).
Definition mi_X (z : mitem) (t : st) : Prop := In (h_det (mi_2 z)) (s_tracked t) /\ h_obj (mi_1 z) <> h_det (mi_1 z) /\ h_obj (mi_2 z) <> h_det (mi_2 z).

Lemma merges_run (f : mitem -> nat * nat * dval N) l : forall s s', run (fun z => mstep (f z)) l s s' <-> merges (map f l) s s'.
Proof.
  induction l as [|z l IH]; intros s s'; split; intros R; inversion R; subst; try constructor.
  - match goal with H : mstep _ _ _ |- _ => destruct H as (s2 & u & E & Hin & ->) end. cbn. destruct (f z) as [[i r] d]. econstructor; [exact E|exact Hin|]. apply IH. assumption.
  - cbn in *. econstructor; [|apply IH; eassumption]. unfold mstep. match goal with H : _ = f z |- _ => rewrite <- H end. cbn. eauto 6.
Qed.
Lemma merge_tracked i k s s' u : merge (FO:=FO) i k s = (s', Ret u) -> s_tracked s' = s_tracked s.
Proof. intros E. apply merge_ret in E as (_ & F & _). apply (fr_tracked _ _ _ F). Qed.
Lemma mi_own z s s' t : Ag mi_P mi_F z s t -> mi_X z t -> mstep1 z s s' -> exists t', mstep2 z t t' /\ Ag mi_P mi_F z s' t'.
Proof.
  destruct z as [[[[[i k] j] l] d] F]. intros G (Xt & Xn & Xn') (s1 & u & E & Hin & ->). cbn in E, Xt, Hin, Xn, Xn'.
  pose proof (G i j (or_introl eq_refl)) as G1. pose proof (G k l (or_intror (or_introl eq_refl))) as G2. cbn in G1, G2.
  destruct (loc_merge _ _ _ _ _ _ _ G1 G2) as [E2 G3]. rewrite E in E2, G3. cbn in E2, G3. unfold mstep2, mstep. cbn.
  destruct (merge j l t) as [t1 [u'|e]] eqn:Et; cbn in E2, G3; [|discriminate].
  eexists. split; [exists t1, u'; split; [reflexivity|split; [rewrite (merge_tracked _ _ _ _ _ Et); exact Xt|reflexivity]]|].
  pose proof (proj1 (proj2 (merge_ret _ _ _ _ _ E))) as F1. pose proof (proj1 (proj2 (merge_ret _ _ _ _ _ Et))) as F2.
  intros i' j' [X|[X|[]]]; injection X as <- <-; cbn.
  - destruct G3 as [A B C]. split; auto.
  - destruct G2 as [A B C]. split; cbn.
    + rewrite (fr_store _ _ _ F1 k) by auto. rewrite (fr_store _ _ _ F2 l) by auto. exact A.
    + rewrite (fr_store _ _ _ F1 k) by auto. exact B.
    + intros q Hq. apply (lc_heap _ _ _ _ _ G3 q Hq).
Qed.
Lemma mi_out1 z s s' t : Ag mi_P mi_F z s t -> mstep1 z s s' -> outside (map fst (mi_P z)) (mi_F z) s s'.
Proof.
  destruct z as [[[[[i k] j] l] d] F]. intros G (s1 & u & E & Hin & ->). cbn in E |- *. apply (merge_outside i k F) in E.
  - destruct E as [A B]. split; auto. intros x Hx. cbn. apply A. intros [->|[]]. apply Hx. left. reflexivity.
  - apply (lc_past _ _ _ _ _ (G k l (or_intror (or_introl eq_refl)))).
Qed.
Lemma mi_out2 z s t t' : Ag mi_P mi_F z s t -> mstep2 z t t' -> outside (map snd (mi_P z)) (mi_F z) t t'.
Proof.
  destruct z as [[[[[i k] j] l] d] F]. intros G (s1 & u & E & Hin & ->). cbn in E |- *. apply (merge_outside j l F) in E.
  - destruct E as [A B]. split; auto. intros x Hx. cbn. apply A. intros [->|[]]. apply Hx. left. reflexivity.
  - pose proof (G k l (or_intror (or_introl eq_refl))) as Gk. pose proof (core_fields _ _ (lc_obj _ _ _ _ _ Gk)) as (_ & _ & _ & _ & _ & _ & _ & _ & <- & _).
    apply (lc_past _ _ _ _ _ Gk).
Qed.
Lemma remove_first_other x y l : In x l -> x <> y -> In x (remove_first y l).
Proof. induction l as [|a l IH]; intros H Hne; [destruct H|]. cbn. destruct (Nat.eqb_spec a y) as [->|]; destruct H as [->|H]; cbn; auto. contradiction. Qed.
Lemma mi_other z z' s t t' : Ag mi_P mi_F z s t -> mstep2 z t t' -> apart_items mi_P mi_F z z' -> mi_X z' t -> mi_X z' t'.
Proof.
  destruct z as [[[[[i k] j] l] d] F], z' as [[[[[i' k'] j'] l'] d'] F']. intros _ (s1 & u & E & Hin & ->) (_ & A & _) (Xt & Xn). split; [|exact Xn]. cbn in *.
  rewrite (merge_tracked _ _ _ _ _ E). apply remove_first_other; [exact Xt|]. intros ->. apply (A l); auto.
Qed.

Theorem merges_any_order l l' (s s' t : st) : merges (map mi_1 l) s s' -> NoDup l ->
  (forall z z', In z l -> In z' l -> z <> z' -> apart_items mi_P mi_F z z') ->
  Permutation l l' -> (forall z, In z l -> Ag mi_P mi_F z s t /\ mi_X z t) ->
  exists t', merges (map mi_2 l') t t' /\ (forall z, In z l -> Ag mi_P mi_F z s' t') /\
    outside (flat_map (fun z => map fst (mi_P z)) l) (flat_map mi_F l) s s' /\ outside (flat_map (fun z => map snd (mi_P z)) l') (flat_map mi_F l') t t'.
Proof.
  intros R Nd Ap Pm G. apply merges_run in R.
  destruct (in_any_order mi_P mi_F mstep1 mstep2 mi_X mi_own mi_out1 mi_out2 mi_other l s s' R Nd Ap l' t Pm G) as (t' & R' & G' & O1 & O2).
  exists t'. split; [apply merges_run; exact R'|]. auto.
Qed.
End Seq.

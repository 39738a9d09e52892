(** Every call of [update], whether it returns or raises, is a sequence of primitive state changes. *)
From Coq Require Import ZArith Bool Arith String List Lia Sorting.Sorted.
From Verif Require Import Model.Num Model.Base Model.Matching Model.Filter Model.Tracker.
Import ListNotations.

Section Frame.
Context {N : Num} {FO : filter_ops N}.
Notation st := (st FO).
Notation tobj := (tobj FO).
Notation det := (detection N).

(** Same detection up to the attributes norfair writes (age, absolute_points). *)
Definition same_det (d d' : det) : Prop :=
  d_points d = d_points d' /\ d_scores d = d_scores d' /\ d_label d = d_label d' /\ d_data d = d_data d'.
(** Same identity: everything written by __init__, is_initializing, id and global_id. *)
Definition same_ident (o o' : tobj) : Prop :=
  o_conf o = o_conf o' /\ o_initializing o = o_initializing o' /\
  o_id o = o_id o' /\ o_gid o = o_gid o'.

Definition valid (s : st) (i : nat) : Prop := 1 <= i <= s_icount s.

(** The ways in which norfair writes to an object in place. *)
Inductive omut : tobj -> tobj -> Prop :=
| om_step ct o : omut o (obj_update_ct ct (tracker_step o))
| om_last r o : omut o (set_last_det r o)
| om_hit p o : omut o (set_hit (Z.min (o_hit o + 2 * p) (oc_hit_counter_max (o_conf o))) o)
| om_points p counted o : List.length counted = List.length (o_point_hits o) ->
    omut o (set_point_hits (point_hits_update p (oc_pointwise_max (o_conf o)) counted (o_point_hits o)) o)
| om_update z mask o : List.length z = dim_z o -> List.length mask = oc_num_points (o_conf o) ->
    omut o (set_filter (f_update FO (o_filter o) z
              (repeat_each (oc_dim_points (o_conf o)) (map (fun m : bool => if m then n1 else n0) mask))) o)
| om_reset z mask o : List.length z = dim_z o -> List.length mask = oc_num_points (o_conf o) ->
    List.length (o_once o) = List.length mask ->
    omut o (set_filter (f_set_x FO (o_filter o)
              (reset_first_detected (oc_dim_points (o_conf o)) (dim_z o) mask (o_once o) z (f_x FO (o_filter o)))) o)
| om_once mask o : List.length (o_once o) = List.length mask -> omut o (set_once (map2 orb (o_once o) mask) o)
| om_min m o : omut o (set_min_distance m o)
| om_dist m o : omut o (set_last_distance m o).

Lemma omut_ident o o' : omut o o' -> same_ident o o'.
Proof. destruct 1; repeat split; destruct ct; reflexivity. Qed.

(** [merge] up to past_detections. *)
Definition merge_obj (c o : tobj) : tobj :=
  set_filter (o_filter c) (set_once (o_once c) (set_last_det (o_last_det c) (set_min_distance (o_min_distance c)
    (set_last_distance (o_last_distance c) (set_point_hits (o_point_hits c)
      (set_hit (oc_initial_period (o_conf o) * 2)%Z (set_reid None o))))))).

Context (cf : tconf FO).

Inductive prim : st -> st -> Prop :=
| prim_det T r s : prim s (mod_det r (det_update_ct T) s)
| prim_past i r s : prim s (fst (cond_add_past i r s))
| prim_obj i f s : omut (s_store s i) (f (s_store s i)) -> prim s (mod_obj i f s)
| prim_merge i j s : tc_reid_distance cf <> None -> valid s j -> prim s (mod_obj i (merge_obj (s_store s j)) s)
| prim_init i s : valid s i -> o_initializing (s_store s i) = true ->
    prim s (acquire_ids i (mod_obj i (set_initializing false) s))
| prim_tracked l s : (StronglySorted lt (s_tracked s) -> StronglySorted lt l) -> incl l (s_tracked s) ->
    prim s (s_set_tracked l s)
| prim_new r p ct s : prim s (create_object cf r p ct s).

Inductive prims : st -> st -> Prop :=
| prims_refl s : prims s s
| prims_step s s' s'' : prim s s' -> prims s' s'' -> prims s s''.

Lemma prims_one s s' : prim s s' -> prims s s'.
Proof. intros. eapply prims_step; eauto. constructor. Qed.
Lemma prims_trans s s' s'' : prims s s' -> prims s' s'' -> prims s s''.
Proof. induction 1; auto. intros. eapply prims_step; eauto. Qed.

Lemma prims_snoc s s' s'' : prims s s' -> prim s' s'' -> prims s s''.
Proof. intros. eapply prims_trans; eauto. apply prims_one; auto. Qed.

Lemma same_ident_refl o : same_ident o o.
Proof. repeat split. Qed.
Lemma same_det_refl d : same_det d d.
Proof. repeat split. Qed.

Lemma cond_add_past_counts i r (s : st) : s_icount (fst (cond_add_past i r s)) = s_icount s /\
  s_count (fst (cond_add_past i r s)) = s_count s /\ s_gcount (fst (cond_add_past i r s)) = s_gcount s /\
  s_tracked (fst (cond_add_past i r s)) = s_tracked s.
Proof.
  unfold cond_add_past. destruct (Nat.eqb _ 0); [auto|]. destruct (Nat.ltb _ _); cbn; [auto|].
  destruct (o_past _); [auto|]. destruct (d_age _); [|auto]. destruct (_ <=? _)%Z; auto.
Qed.

Lemma prim_icount s s' : prim s s' -> s_icount s <= s_icount s'.
Proof.
  destruct 1; cbn; auto.
  - rewrite (proj1 (cond_add_past_counts i r s)). auto.
  - unfold create_object. cbn. destruct (p <=? tc_delay cf)%Z; cbn; lia.
Qed.
Lemma prims_icount s s' : prims s s' -> s_icount s <= s_icount s'.
Proof. induction 1; auto. apply prim_icount in H. lia. Qed.

Ltac ident := intros; repeat split.

Lemma cond_add_past_prims i r s : prims s (fst (cond_add_past i r s)).
Proof. apply prims_one, prim_past. Qed.

Lemma prims_valid s s' i : prims s s' -> valid s i -> valid s' i.
Proof. intros H [A B]. apply prims_icount in H. split; lia. Qed.

Lemma hit_prims i r p s : valid s i -> prims s (fst (hit i r p s)).
Proof.
  intros Hv. unfold hit. pose proof (cond_add_past_prims i r s) as H0.
  destruct (cond_add_past i r s) as [s0 [u|e]]; cbn in H0; [|exact H0].
  eapply prims_trans; [exact H0|]. assert (Hv0 : valid s0 i) by (eapply prims_valid; eauto).
  clear H0 Hv. rename s0 into t.
  set (s1 := mod_obj i (set_last_det r) t).
  set (s2 := mod_obj i (fun o => set_hit _ o) s1).
  assert (H2 : prims t s2).
  { eapply prims_snoc; [eapply prims_snoc; [constructor|]|]; apply prim_obj; constructor. }
  set (s3 := if _ && _ then _ else s2).
  assert (H3 : prims t s3).
  { subst s3. destruct (o_initializing (s_store s2 i)) eqn:E; cbn; [|exact H2].
    destruct (_ <? _)%Z; [|exact H2]. eapply prims_trans; [exact H2|]. apply prims_one. apply prim_init; auto. }
  clearbody s3. clear H2. clear s1 s2.
  cbv zeta.
  match goal with |- context [negb (Nat.eqb (List.length ?c) _)] => set (counted := c) end.
  destruct (Nat.eqb_spec (List.length counted) (List.length (o_point_hits (s_store s3 i)))) as [L1|L1]; cbn [negb]; [|exact H3].
  set (mask := over_threshold _ _ _) in *. set (z := flatten _).
  set (s4 := mod_obj i (fun o => set_point_hits _ o) s3).
  assert (H4 : prims t s4).
  { eapply prims_snoc; [exact H3|]. apply prim_obj. apply om_points. exact L1. }
  destruct (Nat.eqb_spec (List.length z) (dim_z (s_store s3 i))) as [L2|L2]; cbn [negb orb]; [|exact H4].
  destruct (Nat.eqb_spec (List.length mask) (oc_num_points (o_conf (s_store s3 i)))) as [L3|L3]; cbn [negb orb]; [|exact H4].
  assert (C4 : o_conf (s_store s4 i) = o_conf (s_store s3 i) /\ o_once (s_store s4 i) = o_once (s_store s3 i)).
  { subst s4. cbn. unfold upd. rewrite Nat.eqb_refl. auto. }
  destruct C4 as [C4 O4].
  clearbody s4.
  set (s5 := mod_obj i (fun o => set_filter (f_update _ _ _ _) o) s4).
  assert (H5 : prims t s5).
  { eapply prims_snoc; [exact H4|]. apply prim_obj. rewrite <- C4. apply om_update; [unfold dim_z in *|]; rewrite C4; auto. }
  destruct (Nat.eqb_spec (List.length (o_once (s_store s3 i))) (List.length mask)) as [L4|L4]; cbn [negb]; [|exact H5].
  assert (C5 : o_conf (s_store s5 i) = o_conf (s_store s3 i) /\ o_once (s_store s5 i) = o_once (s_store s3 i)).
  { subst s5. cbn. unfold upd. rewrite Nat.eqb_refl. cbn. auto. }
  destruct C5 as [C5 O5].
  clearbody s5. cbn [fst].
  set (s6 := mod_obj i (fun o => set_filter (f_set_x _ _ _) o) s5).
  assert (H6 : prims t s6).
  { eapply prims_snoc; [exact H5|]. apply prim_obj. unfold dim_z. rewrite <- C5. fold (dim_z (s_store s5 i)).
    apply om_reset; [unfold dim_z in *| |]; rewrite ?C5, ?O5; auto. }
  assert (C6 : o_once (s_store s6 i) = o_once (s_store s3 i)).
  { subst s6. cbn. unfold upd. rewrite Nat.eqb_refl. cbn. auto. }
  clearbody s6. eapply prims_snoc; [exact H6|]. apply prim_obj. apply om_once. rewrite C6. exact L4.
Qed.

Lemma add_pasts_prims i rs : forall s, prims s (fst (add_pasts i rs s)).
Proof.
  induction rs as [|r rs IH]; intros s; cbn; [constructor|].
  pose proof (cond_add_past_prims i r s) as H0.
  destruct (cond_add_past i r s) as [s0 [u|e]]; cbn in H0; [|exact H0].
  eapply prims_trans; eauto.
Qed.

Lemma merge_prims i j s : tc_reid_distance cf <> None -> valid s j -> prims s (fst (merge i j s)).
Proof.
  intros Hre Hv. unfold merge. eapply prims_trans; [|apply add_pasts_prims].
  apply prims_one. apply (prim_merge i j s Hre Hv).
Qed.

Lemma remove_first_incl x l : incl (remove_first x l) l.
Proof.
  induction l as [|y l IH]; cbn; [apply incl_refl|]. destruct (Nat.eqb y x).
  - apply incl_tl, incl_refl.
  - intros z [<-|Hz]; [left; reflexivity|right; apply IH; exact Hz].
Qed.
Lemma remove_first_sorted x l : StronglySorted lt l -> StronglySorted lt (remove_first x l).
Proof.
  induction 1 as [|y l H IH F]; cbn; [constructor|]. destruct (Nat.eqb y x); auto. constructor; auto.
  rewrite Forall_forall in *. intros z Hz. apply F. eapply remove_first_incl; eauto.
Qed.
Lemma filter_sorted f l : StronglySorted lt l -> StronglySorted lt (filter f l).
Proof.
  induction 1 as [|y l H IH F]; cbn; [constructor|]. destruct (f y); auto. constructor; auto.
  rewrite Forall_forall in *. intros z Hz. apply filter_In in Hz. apply F. tauto.
Qed.
Lemma sorted_NoDup l : StronglySorted lt l -> NoDup l.
Proof.
  induction 1 as [|y l H IH F]; constructor; auto. rewrite Forall_forall in F. intros C. apply F in C. lia.
Qed.
Lemma remove_first_NoDup x l : NoDup l -> NoDup (remove_first x l).
Proof.
  induction 1; cbn; [constructor|]. destruct (Nat.eqb x0 x); auto. constructor; auto.
  intros C. apply remove_first_incl in C. auto.
Qed.

Lemma apply_matches_prims thr M objects cands p pairs : forall uc mo uo s,
  Forall (valid s) objects -> (forall j, In (CObj j) cands -> valid s j) ->
  (forall j, In (CObj j) cands -> tc_reid_distance cf <> None) ->
  prims s (fst (apply_matches thr M objects cands p pairs uc mo uo s)).
Proof.
  induction pairs as [|[ci oi] pairs IH]; intros uc mo uo s Hv Hc Hre; cbn; [constructor|].
  destruct (nth_error cands ci) as [c|] eqn:Ec; [|constructor].
  destruct (nth_error objects oi) as [i|] eqn:Ei; [|constructor].
  assert (Hi : valid s i) by (rewrite Forall_forall in Hv; apply Hv; eapply nth_error_In; eauto).
  destruct (dltb (entry M ci oi) thr); [|apply IH; auto].
  destruct c as [r|j].
  - pose proof (hit_prims i r p s Hi) as H. destruct (hit i r p s) as [s1 [u|e]]; cbn in H; [|exact H].
    set (s2 := mod_obj i (set_last_distance (Some (entry M ci oi))) s1).
    assert (H2 : prims s s2).
    { eapply prims_trans; [exact H|]. apply prims_one. apply prim_obj. constructor. }
    eapply prims_trans; [exact H2|]. apply IH; [eapply Forall_impl; [|exact Hv]; intros a; apply prims_valid; auto| |exact Hre].
    intros j Hj. eapply prims_valid; eauto.
  - assert (Hj : valid s j) by (apply Hc; eapply nth_error_In; eauto).
    pose proof (merge_prims i j s (Hre j (nth_error_In _ _ Ec)) Hj) as H. destruct (merge i j s) as [s1 [u|e]]; cbn in H; [|exact H].
    destruct (existsb (Nat.eqb j) (s_tracked s1)); [|exact H].
    assert (H2 : prims s (s_set_tracked (remove_first j (s_tracked s1)) s1)).
    { eapply prims_trans; [exact H|]. apply prims_one. apply prim_tracked.
      - apply remove_first_sorted. - apply remove_first_incl. }
    eapply prims_trans; [exact H2|]. apply IH; [eapply Forall_impl; [|exact Hv]; intros a; apply prims_valid; auto| |exact Hre].
    intros j' Hj'. eapply prims_valid; eauto.
Qed.

Lemma set_min_distances_prims thr M objects : forall j s, prims s (set_min_distances thr M j objects s).
Proof.
  induction objects as [|i objects IH]; intros j s; cbn; [constructor|].
  eapply prims_step; [|apply IH]. apply prim_obj. constructor.
Qed.

Lemma phase_prims rnd dist thr objects cands p s : Forall (valid s) objects ->
  (forall j, In (CObj j) cands -> valid s j) ->
  (forall j, In (CObj j) cands -> tc_reid_distance cf <> None) ->
  prims s (fst (update_objects_in_place rnd dist thr objects cands p s)).
Proof.
  intros Hv Hc Hre. unfold update_objects_in_place. destruct cands as [|c0 cands0]; [constructor|].
  set (cands := c0 :: cands0) in *. clearbody cands.
  destruct (get_distances rnd dist s objects cands) as [M|e]; [|constructor].
  destruct (existsb dis_nan (List.concat M)); [constructor|].
  set (s1 := if existsb dtruth (List.concat M) then _ else s).
  assert (H1 : prims s s1).
  { subst s1. destruct (existsb dtruth _); [apply set_min_distances_prims|constructor]. }
  clearbody s1.
  destruct (match_dets_and_objs rnd thr M) as [[[|a l] ois]|]; [exact H1| |exact H1].
  eapply prims_trans; [exact H1|]. apply apply_matches_prims.
  - eapply Forall_impl; [|exact Hv]. intros x. apply prims_valid; auto.
  - intros j Hj. eapply prims_valid; eauto.
  - exact Hre.
Qed.

Lemma create_objects_prims cands p ct : forall s, prims s (fst (create_objects cf cands p ct s)).
Proof.
  induction cands as [|[r|j] cands IH]; intros s; cbn; [constructor| |constructor].
  eapply prims_step; [apply prim_new|apply IH].
Qed.

Lemma update_dets_ct_prims T dets : forall s, prims s (update_dets_ct T dets s).
Proof.
  induction dets as [|r dets IH]; intros s; cbn; [constructor|].
  eapply prims_step; [|apply IH]. apply prim_det.
Qed.

Lemma step_objects_prims ct objs : forall s, prims s (step_objects ct objs s).
Proof.
  induction objs as [|i objs IH]; intros s; cbn; [constructor|].
  eapply prims_step; [|apply IH]. apply prim_obj. constructor.
Qed.

Lemma filter_incl {A} (f : A -> bool) l : incl (filter f l) l.
Proof. intros x Hx. apply filter_In in Hx. tauto. Qed.

Lemma prune_spec c (s : st) :
  let '(tracked, alive, dead) := prune c s in
  tracked = filter (fun i => match tc_reid_max c with
                             | None => hit_counter_is_positive (s_store s i)
                             | Some _ => reid_hit_counter_is_positive (s_store s i) end) (s_tracked s)
  /\ alive = filter (fun i => hit_counter_is_positive (s_store s i)) tracked
  /\ dead = filter (fun i => negb (hit_counter_is_positive (s_store s i))) tracked.
Proof.
  unfold prune. destruct (tc_reid_max c); [auto|].
  split; [reflexivity|]. split.
  - induction (s_tracked s) as [|i l IH]; cbn; auto.
    destruct (hit_counter_is_positive (s_store s i)) eqn:E; cbn; auto. rewrite E, <- IH. reflexivity.
  - induction (s_tracked s) as [|i l IH]; cbn; auto.
    destruct (hit_counter_is_positive (s_store s i)) eqn:E; cbn; auto. rewrite E. cbn. auto.
Qed.

Lemma uip_unmatched_incl rnd (dist : distance FO) thr objects cands p s s' uc mo uo :
  update_objects_in_place rnd dist thr objects cands p s = (s', Ret (uc, mo, uo)) ->
  incl mo objects /\ incl uo objects /\ incl uc cands.
Proof.
  unfold update_objects_in_place. destruct cands as [|c0 cands0].
  { intros E; injection E as <- <- <- <-. split; [intros ? []|split; apply incl_refl]. }
  set (cands := c0 :: cands0). clearbody cands.
  destruct (get_distances rnd dist s objects cands) as [M|e]; [|discriminate].
  destruct (existsb dis_nan (List.concat M)); [discriminate|].
  set (s1 := if existsb dtruth (List.concat M) then _ else s). clearbody s1.
  assert (Hni : forall A idxs k (l : list A), incl (not_in_idxs idxs k l) l).
  { intros A idxs k l. revert k. induction l as [|a l IH]; intros k; cbn; [apply incl_refl|]. destruct (existsb _ _).
    - apply incl_tl. apply IH.
    - intros z [<-|Hz]; [left; reflexivity|right; eapply IH; exact Hz]. }
  destruct (match_dets_and_objs rnd thr M) as [[[|a l] ois]|]; [| |discriminate].
  { intros E; injection E as <- <- <- <-. split; [intros ? []|split; apply incl_refl]. }
  generalize (Hni _ ois 0 objects). generalize (not_in_idxs ois 0 objects) as uo0.
  assert (incl (@nil nat) objects) as Hmo by (intros ? []). revert Hmo.
  generalize (@nil nat) as mo0. generalize (Hni _ (a :: l) 0 cands). generalize (not_in_idxs (a :: l) 0 cands) as uc0.
  generalize (combine (a :: l) ois) as pairs. clear a l ois. intros pairs. revert s1.
  induction pairs as [|[ci oi] pairs IH]; intros s1 uc0 Huc mo0 Hmo uo0 Huo E; cbn in E.
  - injection E as <- <- <- <-. auto.
  - destruct (nth_error cands ci) as [c|] eqn:Ec; [|discriminate].
    destruct (nth_error objects oi) as [i|] eqn:Ei; [|discriminate].
    apply nth_error_In in Ei. apply nth_error_In in Ec.
    destruct (dltb (entry M ci oi) thr).
    + destruct c as [r|j].
      * destruct (hit i r p s1) as [s2 [u|e]]; [|discriminate].
        eapply IH in E; eauto. intros z Hz. apply in_app_iff in Hz as [Hz|[<-|[]]]; auto.
      * destruct (merge i j s1) as [s2 [u|e]]; [|discriminate].
        destruct (existsb _ _); [|discriminate]. eapply IH in E; eauto.
    + eapply IH in E; eauto; intros z Hz; apply in_app_iff in Hz as [Hz|[<-|[]]]; auto.
Qed.

Lemma reid_phase_prims objects mo p s : Forall (valid s) objects -> Forall (valid s) mo ->
  prims s (fst (reid_phase cf objects mo p s)).
Proof.
  intros Hv Hm. unfold reid_phase. destruct (tc_reid_distance cf) as [f|] eqn:Hf; [|constructor].
  assert (Hre : forall j, In (@CObj j) (map CObj mo) -> tc_reid_distance cf <> None) by (rewrite Hf; discriminate).
  assert (Hc : forall j, In (@CObj j) (map CObj mo) -> valid s j).
  { intros j Hj. apply in_map_iff in Hj as (j' & E & Hj). injection E as ->. rewrite Forall_forall in Hm. auto. }
  pose proof (phase_prims (tc_rnd cf) (ScalarDistance f) (tc_reid_threshold cf) objects (map CObj mo) p s Hv Hc Hre) as H.
  destruct (update_objects_in_place _ _ _ _ _ _ _) as [s' [?|?]]; exact H.
Qed.

Lemma associate_prims alive dead dets p ct s :
  Forall (valid s) alive -> Forall (valid s) dead ->
  prims s (fst (associate cf alive dead dets p ct s)).
Proof.
  intros Ha Hd. rewrite Forall_forall in Ha, Hd. unfold associate.
  assert (Hcd : forall (t : st) l j, In (@CObj j) (map CDet l) -> valid t j).
  { intros t l j Hj. apply in_map_iff in Hj as (? & E & _). discriminate. }
  assert (Hcr : forall l j, In (@CObj j) (map CDet l) -> tc_reid_distance cf <> None).
  { intros l j Hj. apply in_map_iff in Hj as (? & E & _). discriminate. }
  match goal with |- context [update_objects_in_place ?a ?b ?c ?d ?e p s] =>
    pose proof (phase_prims a b c d e p s) as P1;
    destruct (update_objects_in_place a b c d e p s) as [s2 [[[um mo] ui]|ex]] eqn:E1 end;
  (assert (H2 : prims s s2); [apply P1; [apply Forall_forall; intros i Hi; apply Ha;
     eapply filter_incl; eauto|apply Hcd|apply Hcr]|]); [|exact H2].
  apply uip_unmatched_incl in E1 as (_ & Hui & Huc).
  match goal with |- context [update_objects_in_place ?a ?b ?c ?d ?e p s2] =>
    pose proof (phase_prims a b c d e p s2) as P2;
    destruct (update_objects_in_place a b c d e p s2) as [s3 [[[um2 mo2] ui2]|ex]] eqn:E2 end;
  (assert (H3 : prims s s3); [eapply prims_trans; [exact H2|]; apply P2; [apply Forall_forall; intros i Hi;
     eapply prims_valid; [exact H2|]; apply Ha; eapply filter_incl; eauto|intros j Hj; apply Huc in Hj; eapply Hcd; eauto|intros j Hj; apply Huc in Hj; eapply Hcr; eauto]|]); [|exact H3].
  apply uip_unmatched_incl in E2 as (Hmo & _ & _).
  pose proof (reid_phase_prims (ui ++ dead) mo2 p s3) as P4.
  destruct (reid_phase cf (ui ++ dead) mo2 p s3) as [s4 [u|e]];
  (assert (H4 : prims s s4); [eapply prims_trans; [exact H3|]; apply P4; apply Forall_forall; intros i Hi;
     (eapply prims_valid; [exact H3|]); [apply in_app_iff in Hi as [Hi|Hi]; auto;
     apply Ha; eapply filter_incl; apply Hui; exact Hi|apply Ha; eapply filter_incl; apply Hmo; exact Hi]|]); [|exact H4].
  pose proof (create_objects_prims um2 p ct s4) as H5.
  destruct (create_objects cf um2 p ct s4) as [s5 [u'|e']]; cbn in *; eapply prims_trans; eauto.
Qed.

Lemma update_dets_ct_tracked T ds : forall (s : st), s_tracked (update_dets_ct T ds s) = s_tracked s.
Proof. induction ds as [|r ds IH]; intros s; cbn; auto. rewrite IH. reflexivity. Qed.

Lemma begin_update_prims ds ct s alive dead s1 : Forall (valid s) (s_tracked s) ->
  begin_update cf ds ct s = (alive, dead, s1) ->
  prims s s1 /\ Forall (valid s1) alive /\ Forall (valid s1) dead.
Proof.
  intros Hv. unfold begin_update.
  set (s0 := match ct with None => s | Some T => update_dets_ct T ds s end).
  assert (H0 : prims s s0 /\ s_tracked s0 = s_tracked s).
  { subst s0. destruct ct as [T|]; [|split; [constructor|reflexivity]].
    split; [apply update_dets_ct_prims|apply update_dets_ct_tracked]. }
  destruct H0 as [H0 Etr]. clearbody s0.
  pose proof (prune_spec cf s0) as Hp. destruct (prune cf s0) as [[tracked al] de].
  destruct Hp as (Htr & Hal & Hde). intros E. injection E as <- <- <-.
  assert (Hsub : incl tracked (s_tracked s0)) by (rewrite Htr; apply filter_incl).
  assert (H01 : prims s0 (step_objects ct tracked (s_set_tracked tracked s0))).
  { eapply prims_step; [|apply step_objects_prims].
    apply prim_tracked; auto. intros Hnd. rewrite Htr. apply filter_sorted; auto. }
  assert (H1 : prims s (step_objects ct tracked (s_set_tracked tracked s0))) by (eapply prims_trans; eauto).
  split; [exact H1|].
  assert (Hv1 : forall i, In i tracked -> valid (step_objects ct tracked (s_set_tracked tracked s0)) i).
  { intros i Hi. eapply prims_valid; [exact H1|]. rewrite Forall_forall in Hv. apply Hv. rewrite <- Etr. auto. }
  rewrite Hal, Hde. split; apply Forall_forall; intros i Hi; apply Hv1; eapply filter_incl; eauto.
Qed.

Theorem update_prims dets p ct s : Forall (valid s) (s_tracked s) ->
  prims s (fst (update cf dets p ct s)).
Proof.
  intros Hv. unfold update.
  assert (Hmain : forall ds, prims s (fst (let '(alive, dead, s') := begin_update cf ds ct s in
      associate cf alive dead ds p ct s'))).
  { intros ds. destruct (begin_update cf ds ct s) as [[alive dead] s1] eqn:E.
    destruct (begin_update_prims _ _ _ _ _ _ Hv E) as (H & A & B).
    eapply prims_trans; [exact H|]. apply associate_prims; auto. }
  destruct ct, dets; try apply Hmain. cbn. constructor.
Qed.

End Frame.

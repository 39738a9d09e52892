(** Consequences of [update_summary] for single calls and for sequences of calls. *)
From Coq Require Import ZArith Bool Arith String List Lia Permutation Sorting.Sorted.
From Verif Require Import Model.Num Model.Base Model.Matching Model.Filter Model.Tracker
  Spec.MatchingSpec Spec.IdentitySpec Spec.CallSpec Proofs.NumLaws Proofs.MatchingProofs Proofs.TrackerFrame Proofs.Identity
  Proofs.Effect Proofs.CallEffect.
Import ListNotations.

Section CallProps.
Context {N : Num} {FO : filter_ops N}.
Notation st := (st FO).
Notation tobj := (tobj FO).

(* ---- attributes given at creation ---- *)
Record conf_ok (c : tconf FO) (o : tobj) : Prop := {
  co_hcm : oc_hit_counter_max (o_conf o) = tc_hit_counter_max c;
  co_delay : oc_delay (o_conf o) = tc_delay c;
  co_thr : oc_det_thr (o_conf o) = tc_det_thr c;
  co_reid : oc_reid_max (o_conf o) = tc_reid_max c;
  co_past : oc_past_len (o_conf o) = tc_past_len c;
  co_pw : oc_pointwise_max (o_conf o) = Z.max (tc_pointwise_max c) (oc_initial_period (o_conf o))
}.
Definition CInv (c : tconf FO) (s : st) : Prop := forall i, valid s i -> conf_ok c (s_store s i).

Lemma conf_ok_conf c (o o' : tobj) : o_conf o = o_conf o' -> conf_ok c o -> conf_ok c o'.
Proof. intros E []. constructor; rewrite <- E; auto. Qed.

Lemma CInv_prim c s s' : prim c s s' -> CInv c s -> CInv c s'.
Proof.
  intros Hp C. destruct Hp as [T r s|i r s|i f s Hf|i j0 s Hre0 Hj0|i s Hv Hi|l s Hnd Hincl|r p ct s].
  - exact C.
  - intros j Hj. destruct (cond_add_past_counts i r s) as (A & _). unfold valid in Hj. rewrite A in Hj.
    eapply conf_ok_conf; [apply ident_conf, cond_add_past_ident|]. apply C. exact Hj.
  - intros j Hj. eapply conf_ok_conf; [|apply C; exact Hj]. cbn.
    destruct (Nat.eq_dec j i) as [->|Hne]; [rewrite upd_same|rewrite upd_other by auto; reflexivity].
    apply ident_conf, omut_ident, Hf.
  - intros j Hj. eapply conf_ok_conf; [|apply C; exact Hj]. cbn.
    destruct (Nat.eq_dec j i) as [->|Hne]; [rewrite upd_same|rewrite upd_other by auto]; reflexivity.
  - intros j Hj. eapply conf_ok_conf; [|apply C; exact Hj]. cbn.
    destruct (Nat.eq_dec j i) as [->|Hne]; [rewrite !upd_same|rewrite !upd_other by auto]; reflexivity.
  - exact C.
  - intros j Hj. unfold create_object in *. cbv zeta in *. destruct (p <=? tc_delay c)%Z; cbn in *; unfold valid in Hj; cbn in Hj.
    + destruct (Nat.eq_dec j (S (s_icount s))) as [->|Hne]; [rewrite !upd_same; constructor; reflexivity|].
      rewrite !upd_other by auto. apply C. unfold valid. lia.
    + destruct (Nat.eq_dec j (S (s_icount s))) as [->|Hne]; [rewrite !upd_same; constructor; reflexivity|].
      rewrite !upd_other by auto. apply C. unfold valid. lia.
Qed.
Lemma CInv_prims c (s s' : st) : prims c s s' -> CInv c s -> CInv c s'.
Proof. induction 1; auto. intros. apply IHprims. eapply CInv_prim; eauto. Qed.

Lemma TInv_prims c (s s' : st) : prims c s s' -> TInv s -> TInv s'.
Proof. induction 1; auto. intros. apply IHprims. eapply TInv_shape; eauto. eapply prim_shape; eauto. Qed.

Lemma prims_gcount c (s s' : st) : prims c s s' -> s_gcount s <= s_gcount s'.
Proof. induction 1 as [|a b e Hab Hbe IHp]; auto. apply prim_shape, shape_gcount in Hab. lia. Qed.

(** Everything an arbitrary history guarantees. *)
Definition good (c : tconf FO) (s : st) : Prop := TInv s /\ CInv c s.

Lemma good_meanwhile c (s : st) h g : good c s -> s_gcount s <= g -> good c (meanwhile s h g).
Proof. intros [T C] Hg. split; [apply TInv_gcount; auto|exact C]. Qed.
Lemma good_update c (s : st) dets p ct : good c s -> good c (fst (update c dets p ct s)).
Proof.
  intros [T C]. assert (H : prims c s (fst (update c dets p ct s))) by (apply update_prims, (ti_valid _ T)).
  split; [eapply TInv_prims; eauto|eapply CInv_prims; eauto].
Qed.
Lemma tracker_state_good c (s : st) : tracker_state c s -> good c s.
Proof.
  induction 1 as [h g d|s h g H IH Hg|s dets p ct H IH].
  - split; [|intros i [A B]; cbn in B; lia].
    constructor; cbn; try (unfold valid; cbn; intros; lia); try constructor.
  - apply good_meanwhile; auto.
  - apply good_update; auto.
Qed.

Lemma tracker_state_ret c (s : st) dets p ct s' out : tracker_state c s -> update c dets p ct s = (s', Ret out) -> tracker_state c s'.
Proof. intros H E. apply (ts_update c s dets p ct) in H. rewrite E in H. exact H. Qed.

(** Worlds with several trackers. *)
Lemma focus_tracker_state conf (w : world FO) k : reachable conf w -> tracker_state (conf k) (focus w k).
Proof.
  intros (h & d & ops & ->).
  assert (H : forall k0, tracker_state (conf k0) (focus (init_world h d) k0)) by (intros; apply (ts_new (conf k0) h 0 d)).
  assert (W : WInv (init_world h d)) by apply WInv_init.
  revert H W. generalize (init_world h d) as w. induction ops as [|o ops IH]; intros w H W; cbn; auto.
  apply IH; [|apply WInv_exec; auto].
  intros k'. destruct o as [r dd|k0 dets p ct]; cbn.
  - specialize (H k'). apply (ts_meanwhile _ _ (upd (w_heap w) r dd) (w_gcount w)) in H; [exact H|cbn; auto].
  - pose proof (ts_update (conf k0) _ dets p ct (H k0)) as U.
    assert (Hg : s_gcount (focus w k0) <= s_gcount (fst (update (conf k0) dets p ct (focus w k0)))).
    { assert (P : prims (conf k0) (focus w k0) (fst (update (conf k0) dets p ct (focus w k0)))).
      { apply update_prims, (ti_valid _ (wi_t _ W k0)). }
      eapply prims_gcount; eauto. }
    destruct (update (conf k0) dets p ct (focus w k0)) as [s' out]. cbn in *.
    destruct (Nat.eq_dec k' k0) as [->|Hne]; [rewrite focus_unfocus; auto|].
    rewrite focus_unfocus_other by auto. specialize (H k').
    apply (ts_meanwhile _ _ (s_heap s') (s_gcount s')) in H; [exact H|exact Hg].
Qed.

Context (laws : NumLaws N).

(* ---- what happens to one object in one call ---- *)
Inductive fate (c : tconf FO) (dets : list nat) (p : Z) (ct : option (coord_transformation N)) (s s' : st) (i : nat) : Prop :=
| fate_dropped : ~ In i (kept c s) -> ~ tracked s' i -> s_store s' i = s_store s i -> fate c dets p ct s s' i
| fate_missed : In i (kept c s) -> tracked s' i ->
    upto_min (obj_update_ct ct (tracker_step (s_store s i))) (s_store s' i) -> fate c dets p ct s s' i
| fate_matched r dist om : In i (alive c s) -> In r dets ->
    upto_min (obj_update_ct ct (tracker_step (s_store s i))) om ->
    hit_obj_rel (ct_heap ct dets s) p r dist om (s_store s' i) ->
    dlt dist (tc_threshold c) ->
    (tracked s' i \/ (~ tracked s' i /\ o_initializing (s_store s i) = true /\ tc_reid_distance c <> None)) ->
    fate c dets p ct s s' i
| fate_target j om : In i (kept c s) -> tracked s' i -> tc_reid_distance c <> None ->
    (0 <= hit_counter s i -> o_initializing (s_store s i) = false)%Z ->
    In j (uninits c s) -> tracked s j -> ~ tracked s' j -> In (last_det s' j) dets ->
    upto_min (obj_update_ct ct (tracker_step (s_store s i))) om ->
    merge_rel (s_store s' j) om (s_store s' i) -> fate c dets p ct s s' i.

Lemma in_remove_all js l i : In i (remove_all js l) <-> In i l /\ ~ In i js.
Proof.
  unfold remove_all. rewrite filter_In, negb_true_iff. split; intros [A B]; split; auto.
  - intros C. enough (existsb (Nat.eqb i) js = true) by congruence. apply existsb_exists. exists i. split; auto. apply Nat.eqb_refl.
  - destruct (existsb _ _) eqn:E; auto. apply existsb_exists in E as (x & Hx & Ex). apply Nat.eqb_eq in Ex. subst. contradiction.
Qed.

Lemma valid_tracked (s : st) i : TInv s -> tracked s i -> valid s i.
Proof. intros T H. pose proof (ti_valid _ T) as V. rewrite Forall_forall in V. auto. Qed.

Lemma tracked_old c dets p ct (s s' : st) H1 H2 G news i : TInv s -> summary c dets p ct s s' H1 H2 G news ->
  valid s i -> (tracked s' i <-> In i (kept c s) /\ ~ In i (map h_det G)).
Proof.
  intros T S Hv. unfold tracked. rewrite (su_tracked _ _ _ _ _ _ _ _ _ _ S), in_app_iff, in_remove_all, in_seq.
  unfold valid in Hv. split; [intros [H|H]; [auto|lia]|auto].
Qed.

Lemma in_hits (H : list (nat * nat * dval N)) i : In i (map h_obj H) -> exists r d, In (i, r, d) H.
Proof. intros X. apply in_map_iff in X as ([[a b] d] & E & Hin). cbn in E. subst. eauto. Qed.
Lemma in_hit_dets (H : list (nat * nat * dval N)) i : In i (map h_det H) -> exists r d, In (r, i, d) H.
Proof. intros X. apply in_map_iff in X as ([[a b] d] & E & Hin). cbn in E. subst. eauto. Qed.
Lemma hits_in (H : list (nat * nat * dval N)) i r d : In (i, r, d) H -> In i (map h_obj H) /\ In r (map h_det H).
Proof. intros X. split; apply in_map_iff; exists (i, r, d); auto. Qed.

Lemma su_dets c dets p ct (s s' : st) H1 H2 G news i r d : summary c dets p ct s s' H1 H2 G news ->
  In (i, r, d) (H1 ++ H2) -> In r dets.
Proof.
  intros S Hin. eapply Permutation_in; [symmetry; apply (su_perm _ _ _ _ _ _ _ _ _ _ S)|].
  apply in_app_iff in Hin as [Hin|Hin]; apply hits_in in Hin as [_ Hin]; rewrite !in_app_iff; auto.
Qed.

Lemma summary_fate c dets p ct (s s' : st) H1 H2 G news i : TInv s -> summary c dets p ct s s' H1 H2 G news ->
  tracked s i -> fate c dets p ct s s' i.
Proof.
  intros T S Hi. assert (Hv := valid_tracked _ _ T Hi).
  pose proof (tracked_old _ _ _ _ _ _ _ _ _ _ _ T S Hv) as Htr.
  destruct (in_dec Nat.eq_dec i (kept c s)) as [Hk|Hk].
  2:{ apply fate_dropped; auto. - intros X. apply Htr in X. tauto. - apply (su_gone _ _ _ _ _ _ _ _ _ _ S); auto. }
  destruct (in_dec Nat.eq_dec i (map h_obj H1 ++ map h_obj H2 ++ map h_obj G)) as [Hh|Hh].
  2:{ apply fate_missed; auto.
      - apply Htr. split; auto. intros X. apply Hh. rewrite !in_app_iff. right; left. eapply (su_cand _ _ _ _ _ _ _ _ _ _ S); auto.
      - apply (su_missed _ _ _ _ _ _ _ _ _ _ S); auto. }
  assert (Hnd := su_nodup _ _ _ _ _ _ _ _ _ _ S).
  rewrite !in_app_iff in Hh. destruct Hh as [Hh|[Hh|Hh]].
  - destruct (in_hits _ _ Hh) as (r & d & Hin).
    assert (Hin' : In (i, r, d) (H1 ++ H2)) by (apply in_app_iff; auto).
    destruct (su_hit _ _ _ _ _ _ _ _ _ _ S _ _ _ Hin') as (om & A & B).
    eapply fate_matched; eauto.
    + apply inits_alive. eapply (su_obj1 _ _ _ _ _ _ _ _ _ _ S); auto.
    + eapply su_dets; eauto.
    + eapply (su_below _ _ _ _ _ _ _ _ _ _ S); eauto.
    + left. apply Htr. split; auto. intros X. apply (su_cand _ _ _ _ _ _ _ _ _ _ S) in X.
      eapply NoDup_app_disj; [exact Hnd|exact Hh|]. apply in_app_iff; auto.
  - destruct (in_hits _ _ Hh) as (r & d & Hin).
    assert (Hin' : In (i, r, d) (H1 ++ H2)) by (apply in_app_iff; auto).
    destruct (su_hit _ _ _ _ _ _ _ _ _ _ S _ _ _ Hin') as (om & A & B).
    assert (Hu : In i (uninits c s)) by (eapply (su_obj2 _ _ _ _ _ _ _ _ _ _ S); auto).
    eapply fate_matched; eauto.
    + apply uninits_alive; auto.
    + eapply su_dets; eauto.
    + eapply (su_below _ _ _ _ _ _ _ _ _ _ S); eauto.
    + destruct (in_dec Nat.eq_dec i (map h_det G)) as [Hg|Hg].
      * right. split; [intros X; apply Htr in X; tauto|]. split.
        -- unfold uninits in Hu. apply filter_In in Hu. tauto.
        -- intros Er. apply (su_noreid _ _ _ _ _ _ _ _ _ _ S) in Er. subst G. destruct Hg.
      * left. apply Htr. auto.
  - destruct (in_hits _ _ Hh) as (j & d & Hin).
    destruct (su_merge _ _ _ _ _ _ _ _ _ _ S _ _ _ Hin) as (om & A & B).
    assert (Hjg : In j (map h_det G)) by (eapply hits_in; eauto).
    assert (Hj2 : In j (map h_obj H2)) by (apply (su_cand _ _ _ _ _ _ _ _ _ _ S); auto).
    assert (Hu : In j (uninits c s)) by (eapply (su_obj2 _ _ _ _ _ _ _ _ _ _ S); auto).
    assert (Hjt : tracked s j) by (apply (kept_tracked c), alive_kept, uninits_alive; auto).
    eapply fate_target; eauto.
    + apply Htr. split; auto. intros X. apply (su_cand _ _ _ _ _ _ _ _ _ _ S) in X.
      apply NoDup_app_r in Hnd. eapply NoDup_app_disj; [exact Hnd|exact X|auto].
    + intros Er. apply (su_noreid _ _ _ _ _ _ _ _ _ _ S) in Er. subst G. destruct Hh.
    + intros Hz. destruct (su_target _ _ _ _ _ _ _ _ _ _ S i Hh) as [X|X].
      * unfold inits in X. apply filter_In in X as [_ X]. apply negb_true_iff in X. auto.
      * unfold dead in X. apply filter_In in X as [_ X]. apply negb_true_iff in X.
        unfold hit_counter_is_positive in X. unfold hit_counter in Hz. apply Z.leb_gt in X. lia.
    + intros X. apply (tracked_old _ _ _ _ _ _ _ _ _ _ _ T S (valid_tracked _ _ T Hjt)) in X. tauto.
    + destruct (in_hits _ _ Hj2) as (r & dd & Hin2).
      assert (Hin' : In (j, r, dd) (H1 ++ H2)) by (apply in_app_iff; auto).
      destruct (su_hit _ _ _ _ _ _ _ _ _ _ S _ _ _ Hin') as (om' & A' & o1 & B' & C').
      unfold last_det. rewrite C'. cbn. rewrite (hr_last _ _ _ _ _ B'). eapply su_dets; eauto.
Qed.

Theorem update_fate c dets p ct (s s' : st) out i : rnd_ok (tc_rnd c) -> good c s ->
  update c dets p ct s = (s', Ret out) -> tracked s i -> fate c (dets_of dets) p ct s s' i.
Proof.
  intros Hr [T C] E Hi. destruct (update_summary laws _ _ _ _ _ _ _ Hr T E) as (H1 & H2 & G & news & S & _).
  eapply summary_fate; eauto.
Qed.
End CallProps.

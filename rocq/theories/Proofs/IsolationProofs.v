(** Trackers that share no detections do not influence each other. *)
From Coq Require Import ZArith Bool Arith String List Lia.
From Verif Require Import Model.Num Model.Base Model.Matching Model.Filter Model.Tracker Proofs.TrackerFrame Proofs.Simulation Proofs.Simulation2
  Spec.IsolationSpec.
Import ListNotations.

Section I.
Context {N : Num} {FO : filter_ops N}.
Notation st := (st FO).
Notation tobj := (tobj FO).
Definition same_points (r : nat) (p1 p2 a : points N) : Prop := p1 = p2.
Definition same_abs (i : nat) (conf : oconf N) (a1 a2 : option (points N -> points N)) : Prop := a1 = a2.

Lemma det_rel_eq r (d1 d2 : detection N) : det_rel same_points r d1 d2 -> d1 = d2.
Proof. intros [A B C D E F]. unfold same_points in F. destruct d1, d2; cbn in *. subst. reflexivity. Qed.
Lemma erase_gid (o1 o2 : tobj) : erase o1 = erase o2 -> o_abs_to_rel o1 = o_abs_to_rel o2 -> hide_gid o1 = hide_gid o2.
Proof. destruct o1, o2. unfold erase, hide_gid. cbn. intros E ->. injection E; clear E; intros; subst. reflexivity. Qed.
Lemma gid_eq (o1 o2 : tobj) : hide_gid o1 = hide_gid o2 -> o_gid o1 = o_gid o2 -> o1 = o2.
Proof. destruct o1, o2. unfold hide_gid. cbn. intros E ->. injection E; clear E; intros; subst. reflexivity. Qed.

Section D.
Variables (own : nat -> Prop) (pg : Prop) (h1 h2 : nat -> detection N) (cur act : nat -> Prop) (base : nat) (rnd : dval N -> dval N).
Hypothesis cur_own : forall r, cur r -> own r.
Hypothesis act_old : forall i, act i -> 1 <= i <= base.
Notation sim := (@Simulation.sim N FO own same_points same_abs pg h1 h2 base).

Lemma view_obj_same s1 s2 i : sim s1 s2 -> act i -> hide_view (view_obj s1 i) = hide_view (view_obj s2 i) /\ (pg -> view_obj s1 i = view_obj s2 i).
Proof.
  intros HS Hi. pose proof (sm_base _ _ _ _ _ _ _ _ _ HS) as Hb. apply act_old in Hi.
  assert (Hk : known_in s1 i) by (unfold known_in; lia).
  destruct (sm_obj _ _ _ _ _ _ _ _ _ HS i Hk) as [A [B B'] C D]. pose proof (erase_gid _ _ A C) as E.
  destruct (core_fields _ _ A) as (_ & _ & _ & _ & _ & E6 & _ & _ & _ & _ & _ & E12 & _).
  unfold view_obj, hide_view. cbn. rewrite <- E6, <- E12.
  assert (X : s_heap s1 (o_last_det (s_store s1 i)) = s_heap s2 (o_last_det (s_store s1 i)))
    by (eapply det_rel_eq, (sm_in _ _ _ _ _ _ _ _ _ HS), B).
  assert (Y : map (s_heap s1) (o_past (s_store s1 i)) = map (s_heap s2) (o_past (s_store s1 i))).
  { apply map_ext_in. intros r Hr. rewrite Forall_forall in B'. eapply det_rel_eq, (sm_in _ _ _ _ _ _ _ _ _ HS), B', Hr. }
  rewrite <- X, <- Y. split; [f_equal; exact E|]. intros Hg. f_equal. apply gid_eq; auto.
Qed.
Lemma heap_same s1 s2 r : sim s1 s2 -> cur r -> s_heap s1 r = s_heap s2 r.
Proof. intros HS Hr. eapply det_rel_eq, (sm_in _ _ _ _ _ _ _ _ _ HS), cur_own, Hr. Qed.
Lemma view_cand_same s1 s2 c : sim s1 s2 -> cand_ok cur act c ->
  hide_cand (view_cand s1 c) = hide_cand (view_cand s2 c) /\ (pg -> view_cand s1 c = view_cand s2 c).
Proof.
  intros HS. destruct c as [r|i]; cbn; intros Hc; [rewrite (heap_same s1 s2 r HS Hc); auto|].
  destruct (view_obj_same s1 s2 i HS Hc) as [A B]. split; [|intros Hg]; f_equal; auto.
Qed.
Lemma obj_same s1 s2 i : sim s1 s2 -> act i -> hide_gid (s_store s1 i) = hide_gid (s_store s2 i).
Proof. intros HS Hi. destruct (view_obj_same s1 s2 i HS Hi) as [A _]. exact (f_equal (@v_obj N FO) A). Qed.
Lemma conf_same s1 s2 i : sim s1 s2 -> act i -> o_conf (s_store s1 i) = o_conf (s_store s2 i) /\ estimate (s_store s1 i) = estimate (s_store s2 i).
Proof.
  intros HS Hi. pose proof (obj_same s1 s2 i HS Hi) as E. set (a := s_store s1 i) in *. set (b := s_store s2 i) in *. clearbody a b.
  split; [exact (f_equal (@o_conf N FO) E)|exact (f_equal (@estimate N FO) E)].
Qed.

Lemma map_result_ext {A B} (f g : A -> result B) l : (forall a, In a l -> f a = g a) -> map_result f l = map_result g l.
Proof. induction l as [|a l IH]; intros H; cbn; [reflexivity|]. rewrite (H a) by (left; reflexivity). rewrite IH by (intros; apply H; right; auto). reflexivity. Qed.
Lemma same_scalar f : (pg \/ ignores_gid f) -> @same_distances N FO own same_points same_abs pg h1 h2 cur act base rnd (ScalarDistance f).
Proof.
  intros Hf s1 s2 objects cands HS Fo Fc. cbn [get_distances]. rewrite Forall_forall in Fo, Fc. unfold scalar_distances.
  apply map_result_ext. intros c Hc. apply map_result_ext. intros i Hi. specialize (Fo i Hi). specialize (Fc c Hc).
  assert (L1 : cand_label s1 c = cand_label s2 c).
  { destruct c as [r|j]; cbn in *; [rewrite (heap_same s1 s2 r HS Fc); reflexivity|destruct (conf_same s1 s2 j HS Fc) as [-> _]; reflexivity]. }
  assert (L2 : obj_label s1 i = obj_label s2 i) by (unfold obj_label; destruct (conf_same s1 s2 i HS Fo) as [-> _]; reflexivity).
  rewrite L1, L2. destruct (view_cand_same s1 s2 c HS Fc) as [V1 V2]. destruct (view_obj_same s1 s2 i HS Fo) as [W1 W2].
  destruct Hf as [Hg|Hf]; [rewrite (V2 Hg), (W2 Hg); reflexivity|].
  rewrite (Hf (view_cand s1 c)), (Hf (view_cand s2 c)), V1, W1. reflexivity.
Qed.
Lemma same_vectorized f : @same_distances N FO own same_points same_abs pg h1 h2 cur act base rnd (VectorizedDistance f).
Proof.
  intros s1 s2 objects cands HS Fo Fc. cbn [get_distances]. rewrite Forall_forall in Fo, Fc.
  assert (L1 : forall c, In c cands -> cand_label s1 c = cand_label s2 c).
  { intros c Hc. specialize (Fc c Hc). destruct c as [r|j]; cbn in *; [rewrite (heap_same s1 s2 r HS Fc); reflexivity|destruct (conf_same s1 s2 j HS Fc) as [-> _]; reflexivity]. }
  assert (V1 : forall c, In c cands -> cand_vector s1 c = cand_vector s2 c).
  { intros c Hc. specialize (Fc c Hc). destruct c as [r|j]; cbn in *; [rewrite (heap_same s1 s2 r HS Fc); reflexivity|destruct (conf_same s1 s2 j HS Fc) as [_ ->]; reflexivity]. }
  assert (L2 : forall i, In i objects -> obj_label s1 i = obj_label s2 i) by (intros i Hi; unfold obj_label; destruct (conf_same s1 s2 i HS (Fo i Hi)) as [-> _]; reflexivity).
  assert (V2 : forall i, In i objects -> estimate (s_store s1 i) = estimate (s_store s2 i)) by (intros i Hi; apply conf_same; auto).
  unfold vectorized_distances. destruct objects as [|o0 os]; [reflexivity|]. destruct cands as [|c0 cs]; [reflexivity|].
  set (objects := o0 :: os) in *. set (cands := c0 :: cs) in *. clearbody objects cands.
  rewrite (map_ext_in _ (fun i => label_str (obj_label s2 i)) objects) by (intros i Hi; rewrite L2; auto).
  rewrite (map_ext_in _ (fun c => label_str (cand_label s2 c)) cands) by (intros i Hi; rewrite L1; auto).
  generalize (map (fun _ : cand => map (fun _ : nat => DPInf) objects) cands : matrix N).
  match goal with |- forall M, vectorized_loop _ _ _ _ _ ?l _ = _ => generalize l end.
  intros labels. induction labels as [|l labels IH]; intros M; cbn [vectorized_loop]; [reflexivity|].
  rewrite (map_ext_in _ (fun i => String.eqb (label_str (obj_label s2 i)) l) objects) by (intros i Hi; rewrite L2; auto).
  rewrite (map_ext_in _ (fun c => String.eqb (label_str (cand_label s2 c)) l) cands) by (intros i Hi; rewrite L1; auto).
  rewrite (filter_ext_in _ (fun i => String.eqb (label_str (obj_label s2 i)) l) objects) by (intros i Hi; rewrite L2; auto).
  rewrite (filter_ext_in _ (fun c => String.eqb (label_str (cand_label s2 c)) l) cands) by (intros i Hi; rewrite L1; auto).
  rewrite (map_ext_in _ (fun i => flatten (estimate (s_store s2 i))) (filter _ objects)) by (intros i Hi; apply filter_In in Hi as [Hi _]; rewrite V2; auto).
  rewrite (map_ext_in _ (cand_vector s2) (filter _ cands)) by (intros i Hi; apply filter_In in Hi as [Hi _]; rewrite V1; auto).
  destruct (stack _); auto. destruct (stack _); auto. destruct (f _ _); auto. destruct (_ && _)%bool; auto.
Qed.
End D.

(** ** One call *)
Notation sim0 own pg h1 h2 base := (@Simulation.sim N FO own same_points same_abs pg h1 h2 base).
Lemma sim_detected (own : nat -> Prop) pg h1 h2 base T dets : forall (s1 s2 : st), (forall r, In r dets -> own r) -> sim0 own pg h1 h2 base s1 s2 ->
  sim0 own pg h1 h2 base (detected T dets s1) (detected T dets s2).
Proof.
  destruct T as [T|]; [|cbn; auto]. cbn. induction dets as [|r dets IH]; intros s1 s2 Hd HS; cbn; auto.
  apply IH; [intros; apply Hd; right; auto|]. apply sim_det; auto; [apply Hd; left; auto|].
  intros X. rewrite (det_rel_eq _ _ _ X). split; reflexivity.
Qed.
Lemma sim_update (own : nat -> Prop) (pg : Prop) h1 h2 (cf : tconf FO) dets p T (s1 s2 : st) :
  (pg \/ blind_to_gid cf) -> (forall l r, dets = Some l -> In r l -> own r) ->
  sim0 own pg h1 h2 (s_icount s1) s1 s2 ->
  agree own same_points same_abs pg h1 h2 (s_icount s1) (update cf dets p T s1) (update cf dets p T s2).
Proof.
  intros Hb Hd HS.
  assert (X : forall l T', (forall r, In r l -> own r) -> agree own same_points same_abs pg h1 h2 (s_icount s1) (call cf l p T' s1) (call cf l p T' s2)).
  { intros l T' Hl. pose proof (sim_detected own pg h1 h2 _ T' l s1 s2 Hl HS) as HS'.
    pose proof (sim_call own same_points same_abs same_abs pg h1 h2 cf l p T' T' s1 s2) as X. cbv zeta in X.
    rewrite (sim_icount_detected T' l s1) in X. specialize (X HS' Hl).
    assert (Hact : forall i, In i (survivors cf (detected T' l s1)) -> 1 <= i <= s_icount s1).
    { intros i Hi. unfold survivors in Hi. destruct (prune cf (detected T' l s1)) as [[tr al] de] eqn:Ep. apply prune_incl in Ep as (I1 & _).
      pose proof (sm_known _ _ _ _ _ _ _ _ _ HS') as K. rewrite Forall_forall in K. apply I1, K in Hi. unfold known_in in Hi.
      rewrite sim_icount_detected in Hi. exact Hi. }
    apply X; clear X.
    - intros i conf a1 a2 _ ->. reflexivity.
    - intros i conf a1 a2 _ ->. reflexivity.
    - auto.
    - reflexivity.
    - destruct (tc_distance cf) as [f|f] eqn:Ed; [apply same_scalar|apply same_vectorized]; auto.
      destruct Hb as [Hb|[Hb _]]; auto.
    - intros f Hf. apply same_scalar; auto. destruct Hb as [Hb|[_ Hb]]; auto. }
  destruct dets as [l|].
  - rewrite !update_call. apply X. intros r. apply Hd. reflexivity.
  - destruct T as [T|]; [split; [reflexivity|exact HS]|]. rewrite !update_none. apply X. intros r [].
Qed.

(** ** Whole programs *)
Variable conf : nat -> tconf FO.
Variable owner : nat -> nat.
Definition own k r := owner r = k.
Definition rel (k : nat) (w w' : world FO) : Prop := sim0 (own k) False (w_heap w) (w_heap w') 0 (focus w k) (focus w' k).
Definition self (w : world FO) : Prop := forall k, sim0 (own k) True (w_heap w) (w_heap w) 0 (focus w k) (focus w k).

Lemma dets_owned k dets p T : @to_owner N owner (OpUpdate k dets p T) -> forall l r, dets = Some l -> In r l -> own k r.
Proof. cbn. intros H l r -> Hr. rewrite Forall_forall in H. apply H, Hr. Qed.
Lemma sim_any_base (own' : nat -> Prop) (pg : Prop) h1 h2 base (s1 s2 : st) : sim0 own' pg h1 h2 base s1 s2 -> sim0 own' pg h1 h2 (s_icount s1) s1 s2.
Proof. intros HS. eapply sim_params; [exact HS|auto|auto|auto|apply (sm_out _ _ _ _ _ _ _ _ _ HS)|lia]. Qed.
Lemma sim_rebase (own' : nat -> Prop) (pg : Prop) h1 h2 base (s1 s2 : st) : sim0 own' pg h1 h2 base s1 s2 -> sim0 own' pg (s_heap s1) (s_heap s2) 0 s1 s2.
Proof. intros HS. eapply sim_params; [exact HS|auto|auto|auto|auto|lia]. Qed.
Lemma focus_unfocus (w : world FO) k s : focus (unfocus w k s) k = s.
Proof. destruct s. unfold focus, unfocus. cbn. unfold upd. rewrite Nat.eqb_refl. reflexivity. Qed.
Lemma self_update w k dets p T : self w -> @to_owner N owner (OpUpdate k dets p T) ->
  let s := fst (update (conf k) dets p T (focus w k)) in
  sim0 (own k) True (w_heap w) (w_heap w) 0 s s.
Proof.
  intros Hw Ho. pose proof (sim_update (own k) True (w_heap w) (w_heap w) (conf k) dets p T (focus w k) (focus w k)) as X.
  destruct X as [_ X]; auto; [apply (dets_owned k dets p T Ho)|eapply sim_any_base, Hw|].
  cbv zeta. eapply sim_params; [exact X|auto|auto|auto|apply (sm_out _ _ _ _ _ _ _ _ _ X)|lia].
Qed.
(** A call of tracker [k] changes only detections of tracker [k]. *)
Lemma others_untouched w k dets p T r : self w -> @to_owner N owner (OpUpdate k dets p T) -> owner r <> k ->
  s_heap (fst (update (conf k) dets p T (focus w k))) r = w_heap w r.
Proof. intros Hw Ho Hr. pose proof (self_update w k dets p T Hw Ho) as X. apply (sm_out _ _ _ _ _ _ _ _ _ X), Hr. Qed.
Lemma update_exec w k dets p T : exec conf w (OpUpdate k dets p T)
  = (unfocus w k (fst (update (conf k) dets p T (focus w k))), snd (update (conf k) dets p T (focus w k))).
Proof. cbn. destruct (update _ _ _ _ _). reflexivity. Qed.
Lemma other_focus (w : world FO) k j (s : st) : j <> k -> s_store (focus (unfocus w k s) j) = s_store (focus w j) /\ s_tracked (focus (unfocus w k s) j) = s_tracked (focus w j) /\
  s_count (focus (unfocus w k s) j) = s_count (focus w j) /\ s_icount (focus (unfocus w k s) j) = s_icount (focus w j).
Proof. intros Hj. unfold focus, unfocus. cbn. unfold upd. destruct (Nat.eqb_spec j k); [congruence|auto]. Qed.
(** A change of the heap outside the references of tracker [k]. *)
Lemma sim_heaps k (pg : Prop) h1 h2 h1' h2' (s1 s2 t1 t2 : st) : s_heap t1 = h1' -> s_heap t2 = h2' -> sim0 (own k) pg h1 h2 0 s1 s2 ->
  s_store t1 = s_store s1 -> s_tracked t1 = s_tracked s1 -> s_count t1 = s_count s1 -> s_icount t1 = s_icount s1 ->
  s_store t2 = s_store s2 -> s_tracked t2 = s_tracked s2 -> s_count t2 = s_count s2 -> s_icount t2 = s_icount s2 ->
  (pg -> s_gcount t1 = s_gcount t2) ->
  (forall r, owner r = k -> s_heap t1 r = s_heap s1 r) -> (forall r, owner r = k -> s_heap t2 r = s_heap s2 r) ->
  sim0 (own k) pg h1' h2' 0 t1 t2.
Proof.
  intros <- <- [A B C D E F G H I] P1 P2 P3 P4 Q1 Q2 Q3 Q4 Hg Hh1 Hh2. split; auto; try congruence.
  - intros r Hr. unfold own in Hr. rewrite Hh1, Hh2 by exact Hr. apply A, Hr.
  - intros i. unfold known_in. rewrite P1, Q1, P4. apply C.
  - rewrite P2. eapply Forall_impl; [|exact E]. intros i. unfold known_in. rewrite P4. auto.

Qed.
Lemma self_exec w o : self w -> to_owner owner o -> self (fst (exec conf w o)).
Proof.
  intros Hw Ho j. destruct o as [r d|k dets p T].
  - cbn [exec fst]. destruct (Nat.eq_dec (owner r) j) as [E|E].
    + specialize (Hw j). unfold focus in *. cbn in *. destruct Hw as [A B C D E' F G H I]. split; cbn in *; auto.
      intros q Hq. unfold upd. destruct (Nat.eqb_spec q r); [split; reflexivity|apply A, Hq].
    + eapply (sim_heaps j True _ _ _ _ (focus w j) (focus w j)); try reflexivity; [apply Hw| |];
      intros q Hq; cbn; unfold upd; destruct (Nat.eqb_spec q r); congruence.
  - rewrite update_exec. cbn [fst]. pose proof (self_update w k dets p T Hw Ho) as X. cbv zeta in X.
    pose proof (others_untouched w k dets p T) as Hu.
    set (s := fst (update (conf k) dets p T (focus w k))) in *. clearbody s. destruct (Nat.eq_dec j k) as [->|Hj].
    + rewrite focus_unfocus. change (w_heap (unfocus w k s)) with (s_heap s). eapply sim_rebase, X.
    + destruct (other_focus w k j s Hj) as (E1 & E2 & E3 & E4).
      eapply (sim_heaps j True _ _ _ _ (focus w j) (focus w j)); try reflexivity; auto; try exact (Hw j). all: intros r Hr; cbn; rewrite Hu; auto; congruence.
Qed.
Lemma init_sim k (pg : Prop) h dummy : sim0 (own k) pg h h 0 (focus (init_world h dummy) k) (focus (init_world h dummy) k).
Proof. split; cbn; auto. - split; reflexivity. - intros i [H1 H2]. cbn in H2. lia. Qed.
Lemma self_init h dummy : self (init_world h dummy).
Proof. intros k. apply (init_sim k True). Qed.
Lemma rel_same k w w' : rel k w w' -> same_tracker owner k w w'.
Proof.
  intros [A B C D E F G H I]. split; auto.
  - intros i Hi. destruct (C i Hi) as [X1 X2 X3 X4]. apply erase_gid; auto.
  - intros r Hr. apply (det_rel_eq r), A, Hr.
Qed.

Lemma isolated k ops : blind_to_gid (conf k) -> Forall (@to_owner N owner) ops -> forall w w', self w -> rel k w w' ->
  results conf k w ops = results conf k w' (filter (@concerns N owner k) ops) /\
  rel k (run conf w ops) (run conf w' (filter (@concerns N owner k) ops)).
Proof.
  intros Hb. induction 1 as [|o ops Ho Hops IH]; intros w w' Hw HR; [split; auto|].
  assert (Hw' := self_exec w o Hw Ho). cbn [filter]. destruct o as [r d|j dets p T]; cbn [concerns].
  - cbn [results run exec fst]. cbn [exec fst] in Hw'. destruct (Nat.eqb_spec (owner r) k) as [E|E].
    + cbn [results run exec fst]. apply IH; auto. unfold rel, focus in *. cbn in *. destruct HR as [A B C D E' F G H I]. split; cbn in *; auto; try tauto.
      intros q Hq. unfold upd. destruct (Nat.eqb_spec q r); [split; reflexivity|apply A, Hq].
    + apply IH; auto. eapply (sim_heaps k False _ _ _ _ (focus w k) (focus w' k)); try reflexivity; try tauto; [exact HR|].
      intros q Hq. cbn. unfold upd. destruct (Nat.eqb_spec q r); congruence.
  - rewrite update_exec in Hw'. cbn [fst] in Hw'. destruct (Nat.eqb_spec j k) as [->|Hj].
    + cbn [results run]. rewrite !update_exec, Nat.eqb_refl. cbn [fst].
      pose proof (sim_update (own k) False (w_heap w) (w_heap w') (conf k) dets p T (focus w k) (focus w' k)) as X.
      destruct X as [X1 X2]; auto; [apply (dets_owned k dets p T Ho)|eapply sim_any_base, HR|]. rewrite X1.
      assert (R : rel k (unfocus w k (fst (update (conf k) dets p T (focus w k)))) (unfocus w' k (fst (update (conf k) dets p T (focus w' k))))).
      { unfold rel. rewrite !focus_unfocus. eapply sim_rebase, X2. }
      destruct (IH _ _ Hw' R) as [Y1 Y2]. rewrite Y1. split; auto.
    + cbn [results run]. rewrite update_exec. cbn [fst]. destruct (Nat.eqb_spec j k); [contradiction|]. apply IH; auto.
      assert (Hkj : k <> j) by congruence.
      destruct (other_focus w j k (fst (update (conf j) dets p T (focus w j))) Hkj) as (E1 & E2 & E3 & E4).
      eapply (sim_heaps k False _ _ _ _ (focus w k) (focus w' k)); try reflexivity; auto; try tauto; try exact HR.
      intros r Hr. cbn. apply others_untouched; auto. congruence.
Qed.
Theorem trackers_isolated h dummy k ops : blind_to_gid (conf k) -> Forall (@to_owner N owner) ops ->
  results conf k (init_world h dummy) ops = results conf k (init_world h dummy) (filter (@concerns N owner k) ops) /\
  same_tracker owner k (run conf (init_world h dummy) ops) (run conf (init_world h dummy) (filter (@concerns N owner k) ops)).
Proof.
  intros Hb Ho. destruct (isolated k ops Hb Ho (init_world h dummy) (init_world h dummy)) as [A B]; [apply self_init|apply init_sim|].
  split; [exact A|apply rel_same, B].
Qed.
End I.

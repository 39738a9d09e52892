(** C111: whole calls with the coordinates in two orders. *)
From Coq Require Import ZArith Bool Arith String List Lia.
From Verif Require Import Model.Num Model.Base Model.Matching Model.Filter Model.Tracker Spec.CallSpec Spec.ExampleVideo Spec.PointSpec Spec.LabelSpec
  Spec.UnitSpec Spec.CoordSpec Proofs.TrackerFrame Proofs.CallEffect Proofs.UnitLists Proofs.CoordLists Proofs.CoordSim.
Import ListNotations.

Section Run.
Context {N : Num} {FO : filter_ops N}.
Notation st := (st FO).
Notation tobj := (tobj FO).
Notation ct := (option (coord_transformation N)).
Variables dim n : nat.
Hypothesis Hdim : 0 < dim.
Hypothesis Hn : 0 < n.
Variable order : list nat.
Hypothesis Ho : is_order dim n order.
Variable R : fstate FO -> fstate FO -> Prop.
Hypothesis HR : filter_in_order dim n order R.
Variables c c' : tconf FO.
Hypothesis Hc : conf_in_order dim n order c c'.
Section Call.
Variable base : nat.
Notation sim := (CoordSim.sim dim n order R base).
Notation agree := (CoordSim.agree dim n order R base).
Notation act := (CoordSim.act base).
Notation cand_ok := (CoordSim.cand_ok base).
Ltac core E := match type of E with erase ?a = erase ?b => destruct a, b; unfold erase in E; cbn in E; injection E; clear E; intros; subst end.

Lemma known_of s s' i : sim s s' -> act i -> known_in s i.
Proof. intros S Hi. eapply act_known; eauto. Qed.
(** ** New objects *)
Variables T T' : ct.
Hypothesis HT : ct_in_order dim n order T T'.
Lemma sized_first (p : points N) : sized dim n p -> match p with [] => 0 | row :: _ => List.length row end = dim.
Proof. intros [A B]. destruct p; [cbn in A; lia|]. inversion B; auto. Qed.
Lemma sim_create r p s s' : sim s s' -> sim (create_object c r p T s) (create_object c' r p T' s').
Proof.
  intros HS. unfold create_object. destruct (co_same _ _ _ _ _ Hc) as (C1 & C2 & C3 & C4 & C5 & C6). rewrite C1, C2, C3, C4, C5, C6.
  rewrite (sm_heap _ _ _ _ _ _ _ HS r). destruct (sm_shaped _ _ _ _ _ _ _ HS r) as (Sh1 & Sh & Hs).
  set (d := s_heap s r) in *.
  rewrite (sized_first (d_absolute_points d) Sh). cbn [d_absolute_points d_label det_in_order].
  pose proof (conv_shaped dim n Hdim order Ho (d_absolute_points d)) as Sc. rewrite (sized_first _ Sc). rewrite (proj1 Sc), (proj1 Sh).
  assert (Eo : forall thr m d, d_scores d = None -> over_threshold (N := N) thr m d = repeat true m) by (intros thr m d0 E; unfold over_threshold; rewrite E; reflexivity).
  rewrite !Eo by exact Hs. rewrite <- (sm_icount _ _ _ _ _ _ _ HS).
  set (conf := MkOconf _ _ _ _ _ _ _ _ _ _ _). set (iid := S (s_icount s)).
  set (o1 := MkObj conf p None None None r 0%Z (p <=? tc_delay c)%Z None None _ _ _ _ _).
  set (o2 := MkObj conf p None None None r 0%Z (p <=? tc_delay c)%Z None None _ _ _ (f_create FO (in_order dim order _)) _).
  assert (Hor : orel dim n order R o1 o2).
  { split; cbn; auto.
    - apply (fo_create _ _ _ _ HR _ Sh).
    - destruct T as [T0|], T' as [T0'|]; cbn in *; try contradiction; auto. intros q Hq. destruct (HT q Hq) as (_ & _ & X & Y). auto. }
  assert (S1 : sim (MkSt (s_heap s) (s_gcount s) (upd (s_store s) iid o1) (s_tracked s) (s_count s) iid)
                   (MkSt (s_heap s') (s_gcount s') (upd (s_store s') iid o2) (s_tracked s') (s_count s') iid)).
  { destruct HS as [A B C D E F G H I]. split; cbn; auto.
    - intros i [Hi1 Hi2]. cbn in Hi2. unfold upd. destruct (Nat.eqb_spec i iid) as [->|Hne]; auto. apply C. split; lia.
    - eapply Forall_impl; [|exact E]. intros i [X Y]. split; cbn; lia.
    - unfold iid. lia. }
  set (x1 := MkSt (s_heap s) _ _ _ _ _) in *. set (x2 := MkSt (s_heap s') _ _ _ _ _) in *.
  assert (Hk : known_in x1 iid) by (unfold x1, iid; split; cbn; lia). clearbody x1 x2.
  assert (S2 : sim (if (p <=? tc_delay c)%Z then x1 else acquire_ids iid x1) (if (p <=? tc_delay c)%Z then x2 else acquire_ids iid x2))
    by (destruct (Z.leb p _); auto; apply sim_ids; auto).
  set (y1 := if (p <=? tc_delay c)%Z then x1 else _) in *. set (y2 := if (p <=? tc_delay c)%Z then x2 else _) in *.
  assert (Hk2 : known_in y1 iid) by (unfold y1; destruct (Z.leb p _); exact Hk). clearbody y1 y2.
  assert (S3 : sim (mod_det r (d_set_age 0) y1) (mod_det r (d_set_age 0) y2)) by (apply sim_age; auto).
  rewrite <- (sm_tracked _ _ _ _ _ _ _ S3). apply sim_tracked; auto. apply Forall_app. split; [exact (sm_known _ _ _ _ _ _ _ S3)|]. constructor; auto.
Qed.
Lemma sim_creates cands p : forall s s', sim s s' -> agree (create_objects c cands p T s) (create_objects c' cands p T' s').
Proof.
  induction cands as [|[r|j] cands IH]; intros s s' S; cbn; [apply agree_ret, S| |apply agree_raise, S]. apply IH; auto. apply sim_create; auto.
Qed.
Lemma filter_same s s' (f : tobj -> bool) l : sim s s' -> (forall o o', erase o = erase o' -> f o = f o') -> Forall (known_in s) l ->
  filter (fun i => f (s_store s' i)) l = filter (fun i => f (s_store s i)) l.
Proof.
  intros S Hf K. rewrite Forall_forall in K. apply filter_ext_in. intros i Hi. symmetry. apply Hf. exact (or_core _ _ _ _ _ _ (sm_obj _ _ _ _ _ _ _ S i (K i Hi))).
Qed.
Lemma hit_same (o o' : tobj) : erase o = erase o' -> hit_counter_is_positive o = hit_counter_is_positive o'.
Proof. intros E. core E. reflexivity. Qed.
Lemma active_same s s' : sim s s' -> get_active_objects s' = get_active_objects s.
Proof.
  intros S. unfold get_active_objects. rewrite <- (sm_tracked _ _ _ _ _ _ _ S). apply filter_same; auto; [|exact (sm_known _ _ _ _ _ _ _ S)].
  intros o o' E. core E. reflexivity.
Qed.
Lemma Forall_incl {A} (P : A -> Prop) l l' : incl l l' -> Forall P l' -> Forall P l.
Proof. rewrite !Forall_forall. auto. Qed.
Lemma filter_incl' {A} (f : A -> bool) l : incl (filter f l) l.
Proof. intros x Hx. apply filter_In in Hx. tauto. Qed.

Lemma sim_main objects cands p s s' : Forall act objects -> Forall cand_ok cands -> sim s s' ->
  agree (update_objects_in_place (tc_rnd c) (tc_distance c) (tc_threshold c) objects cands p s)
        (update_objects_in_place (tc_rnd c') (tc_distance c') (tc_threshold c') objects cands p s').
Proof.
  intros Fo Fc S. destruct (co_threshold _ _ _ _ _ Hc) as (E1 & E2 & E3). rewrite E1, E3.
  eapply sim_phase; eauto. exact (co_distance _ _ _ _ _ Hc).
Qed.
Lemma sim_reid objects matched p s s' : Forall act objects -> Forall act matched -> sim s s' -> agree (reid_phase c objects matched p s) (reid_phase c' objects matched p s').
Proof.
  intros Fo Fm S. unfold reid_phase. pose proof (co_reid _ _ _ _ _ Hc) as CR.
  destruct (tc_reid_distance c) as [f|] eqn:Ef, (tc_reid_distance c') as [f'|]; try contradiction; [|apply agree_ret, S].
  destruct (co_threshold _ _ _ _ _ Hc) as (E1 & E2 & E3). rewrite E2, E3.
  assert (X : agree (update_objects_in_place (tc_rnd c) (ScalarDistance f) (tc_reid_threshold c) objects (map CObj matched) p s)
                    (update_objects_in_place (tc_rnd c) (ScalarDistance f') (tc_reid_threshold c) objects (map CObj matched) p s')).
  { eapply sim_phase; eauto. rewrite Forall_map. exact Fm. }
  destruct X as [E X]. destruct (update_objects_in_place (tc_rnd c) (ScalarDistance f) _ _ _ p s) as [w1 [x1|e1]];
  destruct (update_objects_in_place (tc_rnd c) (ScalarDistance f') _ _ _ p s') as [w2 [x2|e2]]; cbn [fst snd] in E, X; try discriminate;
    [apply agree_ret, X|injection E as ->; apply agree_raise, X].
Qed.
Lemma sim_associate alive dead dets p s s' : Forall act alive -> Forall act dead -> sim s s' ->
  agree (associate c alive dead dets p T s) (associate c' alive dead dets p T' s').
Proof.
  intros Fa Fd S. unfold associate.
  assert (Fk : forall t t' : st, sim t t' -> Forall (known_in t) alive) by (intros t t' St; eapply Forall_impl; [|exact Fa]; intros i; apply (known_of _ _ _ St)).
  rewrite (filter_same s s' (fun o => negb (o_initializing o)) alive S) by (eauto; intros o o' E; core E; reflexivity).
  assert (Fdets : Forall cand_ok (map CDet dets)) by (rewrite Forall_map; apply Forall_forall; cbn; auto).

  match goal with |- context [update_objects_in_place (tc_rnd c) (tc_distance c) ?thr ?obs ?cs p s] =>
    pose proof (sim_main obs cs p s s' (Forall_incl _ _ _ (filter_incl' _ _) Fa) Fdets S) as [E S'];
    destruct (update_objects_in_place (tc_rnd c) (tc_distance c) thr obs cs p s) as [t1 [[[um1 mo1] ui1]|e1]] eqn:U1;
    destruct (update_objects_in_place (tc_rnd c') (tc_distance c') (tc_threshold c') obs cs p s') as [t2 [[[um2 mo2] ui2]|e2]] eqn:U2;
    cbn [fst snd] in E, S'; try discriminate; injection E; clear E; intros; subst; [|apply agree_raise, S'] end.
  apply uip_unmatched_incl in U1 as (_ & Iui & Ium). clear U2.
  assert (Fum : Forall cand_ok um2) by (eapply Forall_incl; eauto).

  assert (Fui : Forall act ui2) by (eapply Forall_incl; [exact Iui|eapply Forall_incl; [apply filter_incl'|exact Fa]]).
  rewrite (filter_same t1 t2 (fun o => o_initializing o) alive S') by (eauto; intros o o' E; core E; reflexivity).
  match goal with |- context [update_objects_in_place (tc_rnd c) (tc_distance c) ?thr ?obs ?cs p t1] =>
    pose proof (sim_main obs cs p t1 t2 (Forall_incl _ _ _ (filter_incl' _ _) Fa) Fum S') as [E S''];
    destruct (update_objects_in_place (tc_rnd c) (tc_distance c) thr obs cs p t1) as [v1 [[[vm1 vo1] vi1]|e1]] eqn:V1;
    destruct (update_objects_in_place (tc_rnd c') (tc_distance c') (tc_threshold c') obs cs p t2) as [v2 [[[vm2 vo2] vi2]|e2]] eqn:V2;
    cbn [fst snd] in E, S''; try discriminate; injection E; clear E; intros; subst; [|apply agree_raise, S''] end.
  apply uip_unmatched_incl in V1 as (Ivo & _ & Ivm). clear V2.
  assert (Fvo : Forall act vo2) by (eapply Forall_incl; [exact Ivo|eapply Forall_incl; [apply filter_incl'|exact Fa]]).
  assert (Q : agree (reid_phase c (ui2 ++ dead) vo2 p v1) (reid_phase c' (ui2 ++ dead) vo2 p v2)) by (apply sim_reid; auto; apply Forall_app; auto).
  destruct Q as [E Q]. destruct (reid_phase c _ vo2 p v1) as [w1 [x1|e1]], (reid_phase c' _ vo2 p v2) as [w2 [x2|e2]]; cbn [fst snd] in E, Q; try discriminate;
    [|injection E as ->; apply agree_raise, Q].
  pose proof (sim_creates vm2 p w1 w2 Q) as [E' Q'].
  destruct (create_objects c vm2 p T w1) as [z1 [y1|e1]], (create_objects c' vm2 p T' w2) as [z2 [y2|e2]]; cbn [fst snd] in E', Q'; try discriminate;
    [|injection E' as ->; apply agree_raise, Q'].
  rewrite (active_same z1 z2 Q'). apply agree_ret, Q'.
Qed.

(** ** The beginning of a call *)
Lemma sim_steps objs : forall s s', sim s s' -> sim (step_objects T objs s) (step_objects T' objs s').
Proof.
  induction objs as [|i objs IH]; intros s s' S; cbn; auto. apply IH, sim_obj; auto. intros O. apply orel_ct; auto. eapply orel_step; eauto.
Qed.
Lemma sim_dets dets : forall s s', sim s s' ->
  sim (match T with None => s | Some T => update_dets_ct T dets s end) (match T' with None => s' | Some T' => update_dets_ct T' dets s' end).
Proof.
  destruct T as [T0|], T' as [T0'|]; cbn in HT; try contradiction; auto.
  induction dets as [|r dets IH]; intros s s' S; cbn; auto. apply IH. destruct (sm_shaped _ _ _ _ _ _ _ S r) as (A & B & L). destruct (HT _ B) as (X & Z & _).
  apply sim_det; auto.
  - unfold det_update_ct, d_set_abs, det_in_order. cbn. rewrite Z. reflexivity.
  - split; [exact A|]. split; [exact X|exact L].
Qed.
Lemma prune_same s s' : sim s s' -> prune c' s' = prune c s.
Proof.
  intros S. unfold prune. destruct (co_same _ _ _ _ _ Hc) as (_ & _ & _ & _ & _ & C6). rewrite C6.
  rewrite <- (sm_tracked _ _ _ _ _ _ _ S). pose proof (sm_known _ _ _ _ _ _ _ S) as K.
  destruct (tc_reid_max c).
  - rewrite (filter_same s s' reid_hit_counter_is_positive (s_tracked s) S) by (auto; intros o o' E; core E; reflexivity).
    set (tr := filter _ (s_tracked s)). assert (Kt : Forall (known_in s) tr) by (eapply Forall_incl; [apply filter_incl'|exact K]).
    rewrite (filter_same s s' hit_counter_is_positive tr S) by (auto; intros o o' E; core E; reflexivity).
    rewrite (filter_same s s' (fun o => negb (hit_counter_is_positive o)) tr S) by (auto; intros o o' E; core E; reflexivity). reflexivity.
  - rewrite (filter_same s s' hit_counter_is_positive (s_tracked s) S) by (auto; intros o o' E; core E; reflexivity). reflexivity.
Qed.
End Call.
Lemma sim_base base base' s s' : CoordSim.sim dim n order R base s s' -> base' <= s_icount s -> CoordSim.sim dim n order R base' s s'.
Proof. intros [A B C D E F G H I] L. split; auto. Qed.
Lemma dets_icount T dets : forall (s : st), s_icount (update_dets_ct T dets s) = s_icount s /\ s_tracked (update_dets_ct T dets s) = s_tracked s.
Proof. induction dets as [|r dets IH]; intros s; cbn; auto. destruct (IH (mod_det r (det_update_ct T) s)) as [A B]. rewrite A, B. auto. Qed.
Lemma sim_update dets p T T' s s' : ct_in_order dim n order T T' -> CoordSim.sim dim n order R 0 s s' ->
  CoordSim.agree dim n order R 0 (update c (Some dets) p T s) (update c' (Some dets) p T' s').
Proof.
  intros HT S.
  assert (E : forall (cf : tconf FO) (Q : ct) (t : st), update cf (Some dets) p Q t =
    let '(alive, dead, t') := begin_update cf dets Q t in associate cf alive dead dets p Q t') by (intros cf [Q|] t; reflexivity).
  rewrite !E. unfold begin_update.
  pose proof (sim_dets 0 T T' HT dets s s' S) as S1.
  set (t := match T with None => s | Some T => update_dets_ct T dets s end) in *. set (t' := match T' with None => s' | Some T' => update_dets_ct T' dets s' end) in *.
  apply sim_base with (base' := s_icount t) in S1; [|lia]. rewrite (prune_same (s_icount t) t t' S1).
  pose proof (prune_spec c t) as PS. destruct (prune c t) as [[tr al] de]. destruct PS as (P1 & P2 & P3).
  pose proof (sm_known _ _ _ _ _ _ _ S1) as K.
  assert (Kt : Forall (known_in t) tr) by (subst tr; eapply Forall_incl; [apply filter_incl'|exact K]).
  assert (S2 := sim_tracked dim n order R (s_icount t) tr t t' S1 Kt).
  assert (S3 := sim_steps (s_icount t) T T' HT tr _ _ S2).
  assert (X : CoordSim.agree dim n order R (s_icount t) (associate c al de dets p T (step_objects T tr (s_set_tracked tr t)))
     (associate c' al de dets p T' (step_objects T' tr (s_set_tracked tr t')))).
  { apply sim_associate; auto; (eapply Forall_incl; [|exact Kt]); [rewrite P2|rewrite P3]; apply filter_incl'. }
  destruct X as [X1 X2]. split; auto. eapply sim_base; [exact X2|lia].
Qed.

Lemma put_order l : forall h h' : nat -> detection N, (forall r, h' r = det_in_order dim order (h r)) ->
  forall r, put h' (map (fun rd => (fst rd, det_in_order dim order (snd rd))) l) r = det_in_order dim order (put h l r).
Proof.
  unfold put. induction l as [|[q d] l IH]; intros h h' H r; cbn; auto. apply IH. intros x. unfold upd. destruct (Nat.eqb x q); auto.
Qed.
Lemma put_all (P : detection N -> Prop) l : forall h, (forall r, P (h r)) -> Forall (fun rd => P (snd rd)) l -> forall r, P (put h l r).
Proof.
  unfold put. induction l as [|[q d] l IH]; intros h H F r; cbn; auto. inversion F; subst. apply IH; auto. intros x. unfold upd. destruct (Nat.eqb x q); auto.
Qed.
Lemma sim_outcomes ins ins' : Forall2 (input_in_order dim n order) ins ins' ->
  forall s s', CoordSim.sim dim n order R 0 s s' ->
  Forall2 (outcome_in_order dim n order) (outcomes c s ins) (outcomes c' s' ins').
Proof.
  induction 1 as [|x x' ins ins' Hx _ IH]; intros s s' S; cbn [outcomes]; [constructor|].
  destruct Hx as (X1 & X2 & X3 & X4 & X5). rewrite X1, X3, X4.
  assert (S0 : CoordSim.sim dim n order R 0 (meanwhile s (put (s_heap s) (in_new x)) (s_gcount s))
     (meanwhile s' (put (s_heap s') (map (fun rd => (fst rd, det_in_order dim order (snd rd))) (in_new x))) (s_gcount s'))).
  { destruct S as [A B C D E F G H I]. split; cbn; auto.
    - intros r. apply put_order; auto.
    - apply (put_all (det_unscored dim n)); auto. }
  pose proof (sim_update (in_dets x) (in_period x) (in_ct x) (in_ct x') _ _ X5 S0) as [E1 S1]. constructor.
  - split.
    + symmetry. exact E1.
    + symmetry. apply (sm_tracked _ _ _ _ _ _ _ S1).
    + symmetry. apply (sm_count _ _ _ _ _ _ _ S1).
    + symmetry. apply (sm_gcount _ _ _ _ _ _ _ S1).
    + intros i Hi. pose proof (sm_known _ _ _ _ _ _ _ S1) as K. rewrite Forall_forall in K. eapply orel_order; eauto. apply (sm_obj _ _ _ _ _ _ _ S1 i). apply K, Hi.
    + apply (sm_heap _ _ _ _ _ _ _ S1).
  - apply IH; auto.
Qed.
Theorem tracking_in_order ins ins' h g dummy dummy' : (forall r, det_unscored dim n (h r)) -> Forall2 (input_in_order dim n order) ins ins' ->
  Forall2 (outcome_in_order dim n order) (outcomes c (new_tracker h g dummy) ins) (outcomes c' (new_tracker (fun r => det_in_order dim order (h r)) g dummy') ins').
Proof. intros A C. apply sim_outcomes; auto. split; cbn; auto. intros i [X Y]. cbn in Y. lia. Qed.
End Run.

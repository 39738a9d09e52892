(** C93: whole calls in two coordinate systems. *)
From Coq Require Import ZArith Bool Arith String List Lia.
From Verif Require Import Model.Num Model.Base Model.Matching Model.Filter Model.Tracker Spec.CallSpec Spec.ExampleVideo Spec.PointSpec Spec.LabelSpec
  Spec.UnitSpec Proofs.NumLaws Proofs.TrackerFrame Proofs.CallEffect Proofs.UnitLists Proofs.UnitSim.
Import ListNotations.

Lemma map_result_nth {A B} (f : A -> result B) l : forall r i x, map_result f l = Ret r -> nth_error l i = Some x -> exists y, f x = Ret y /\ nth_error r i = Some y.
Proof.
  induction l as [|a l IH]; intros r [|i] x E Hx; cbn in *; try discriminate; destruct (f a) as [b|] eqn:Ea; try discriminate;
    destruct (map_result f l) as [bs|] eqn:El; try discriminate; injection E as <-.
  - injection Hx as <-. eauto.
  - apply (IH bs i x); auto.
Qed.

Section Run.
Context {N : Num} (laws : NumLaws N) (rg : ring_num N) {FO : filter_ops N}.
Notation st := (st FO).
Notation tobj := (tobj FO).
Notation ct := (option (coord_transformation N)).
Variable dim : nat.
Hypothesis Hdim : 0 < dim.
Variable u : units N.
Variable R : nat -> fstate FO -> fstate FO -> Prop.
Hypothesis HR : filter_in_units dim u R.
Variables dh dr : dval N -> dval N.
Hypothesis Uh : distance_unit dh.
Hypothesis Ur : distance_unit dr.
Variables c c' : tconf FO.
Hypothesis Hc : conf_in_units dim u dh dr c c'.
Variable size : label -> nat.
Notation reid := (tc_reid_distance c <> None).
Section Call.
Variable base : nat.
Notation sim := (UnitSim.sim dim u R dh dr reid base size).
Notation agree := (UnitSim.agree dim u R dh dr reid base size).
Notation act := (UnitSim.act base).
Notation cand_ok := (UnitSim.cand_ok base).
Ltac core E := match type of E with erase ?a = erase ?b => destruct a, b; unfold erase in E; cbn in E; injection E; clear E; intros; subst end.

Lemma scalar_labels rnd f (s : st) objects cands M ci oi cd i : scalar_distances rnd f s objects cands = Ret M ->
  nth_error cands ci = Some cd -> nth_error objects oi = Some i -> forall thr, dltb (entry M ci oi) thr = true -> cand_label s cd = obj_label s i.
Proof.
  intros E Hd Hi thr L. unfold scalar_distances in E. destruct (map_result_nth _ _ _ _ _ E Hd) as (row & E1 & E2).
  destruct (map_result_nth _ _ _ _ _ E1 Hi) as (y & E3 & E4). unfold entry in L. rewrite (nth_error_nth _ _ _ E2), (nth_error_nth _ _ _ E4) in L.
  destruct (label_eqb (cand_label s cd) (obj_label s i)) eqn:El.
  - apply label_eqb_eq, El.
  - cbn in E3. injection E3 as <-. destruct thr; discriminate.
Qed.

Lemma known_of s s' i : sim s s' -> act i -> known_in s i.
Proof. intros S Hi. eapply act_known; eauto. Qed.
(** ** New objects *)
Variables T T' : ct.
Hypothesis HT : ct_in_units dim u T T'.
Lemma shaped_first (p : points N) : shaped dim p -> match p with [] => 0 | row :: _ => List.length row end = dim.
Proof. intros [A B]. destruct p; [elim A; reflexivity|]. inversion B; auto. Qed.
Lemma sim_create r p s s' : sim s s' -> sim (create_object c r p T s) (create_object c' r p T' s').
Proof.
  intros HS. unfold create_object. destruct (cu_same _ _ _ _ _ _ Hc) as (C1 & C2 & C3 & C4 & C5 & C6). rewrite C1, C2, C3, C4, C5, C6.
  rewrite (sm_heap _ _ _ _ _ _ _ _ _ _ HS r). destruct (sm_shaped _ _ _ _ _ _ _ _ _ _ HS r) as (Sh1 & Sh & Shl). pose proof (sm_size _ _ _ _ _ _ _ _ _ _ HS) as Sz.
  set (d := s_heap s r) in *.
  rewrite (shaped_first (d_absolute_points d) Sh). cbn [d_absolute_points d_label det_in_units]. rewrite (shaped_first (in_units u (d_absolute_points d)) (conv_shaped dim u _ Sh)).
  assert (Ln : List.length (in_units u (d_absolute_points d)) = List.length (d_absolute_points d)) by (unfold in_units; apply map_length). rewrite Ln.
  change (over_threshold (tc_det_thr c) (List.length (d_absolute_points d)) (det_in_units u d)) with (over_threshold (tc_det_thr c) (List.length (d_absolute_points d)) d).
  set (once := over_threshold _ _ d). rewrite <- (sm_icount _ _ _ _ _ _ _ _ _ _ HS).
  set (conf := MkOconf _ _ _ _ _ _ _ _ _ _ _). set (iid := S (s_icount s)).
  set (o1 := MkObj conf p None None None r 0%Z (p <=? tc_delay c)%Z None None once _ _ _ _).
  set (o2 := MkObj conf p None None None r 0%Z (p <=? tc_delay c)%Z None None once _ _ (f_create FO (in_units u _)) _).
  assert (Hn : 0 < List.length (d_absolute_points d)) by (destruct Sh as [A _]; destruct (d_absolute_points d); [elim A; reflexivity|cbn; lia]).
  assert (Hor : orel dim u R dh dr reid size o1 o2).
  { split; cbn; auto.
    - intros W. rewrite Shl. apply (Sz W r).
    - pose proof (fu_create _ _ _ HR _ Sh) as FC. rewrite rows_length with (dim := dim) in FC by (auto; apply Sh). exact FC.
    - left. reflexivity.
    - destruct T as [T0|], T' as [T0'|]; cbn in *; try contradiction; auto. intros q Hq. destruct (HT q Hq) as (_ & _ & _ & X & Y). auto. }
  assert (S1 : sim (MkSt (s_heap s) (s_gcount s) (upd (s_store s) iid o1) (s_tracked s) (s_count s) iid)
                   (MkSt (s_heap s') (s_gcount s') (upd (s_store s') iid o2) (s_tracked s') (s_count s') iid)).
  { destruct HS as [A B B1 C D E F G H I]. split; cbn; auto.
    - intros i [Hi1 Hi2]. cbn in Hi2. unfold upd. destruct (Nat.eqb_spec i iid) as [->|Hne]; auto. apply C. split; lia.
    - eapply Forall_impl; [|exact E]. intros i [X Y]. split; cbn; lia.
    - unfold iid. lia. }
  set (x1 := MkSt (s_heap s) _ _ _ _ _) in *. set (x2 := MkSt (s_heap s') _ _ _ _ _) in *.
  assert (Hk : known_in x1 iid) by (unfold x1, iid; split; cbn; lia). clearbody x1 x2.
  assert (S2 : sim (if (p <=? tc_delay c)%Z then x1 else acquire_ids iid x1) (if (p <=? tc_delay c)%Z then x2 else acquire_ids iid x2))
    by (destruct (Z.leb p _); auto; apply sim_ids; auto).
  set (y1 := if (p <=? tc_delay c)%Z then x1 else _) in *. set (y2 := if (p <=? tc_delay c)%Z then x2 else _) in *.
  assert (Hk2 : known_in y1 iid) by (unfold y1; destruct (Z.leb p _); exact Hk). clearbody y1 y2.
  assert (S3 : sim (mod_det r (d_set_age 0) y1) (mod_det r (d_set_age 0) y2)) by (apply sim_age; auto).
  rewrite <- (sm_tracked _ _ _ _ _ _ _ _ _ _ S3). apply sim_tracked; auto. apply Forall_app. split; [exact (sm_known _ _ _ _ _ _ _ _ _ _ S3)|]. constructor; auto.
Qed.
Lemma sim_creates cands p : forall s s', sim s s' -> agree (create_objects c cands p T s) (create_objects c' cands p T' s').
Proof.
  induction cands as [|[r|j] cands IH]; intros s s' S; cbn; [apply agree_ret, S| |apply agree_raise, S]. apply IH; auto. apply sim_create; auto.
Qed.
Lemma filter_same s s' (f : tobj -> bool) l : sim s s' -> (forall o o', erase o = erase o' -> f o = f o') -> Forall (known_in s) l ->
  filter (fun i => f (s_store s' i)) l = filter (fun i => f (s_store s i)) l.
Proof.
  intros S Hf K. rewrite Forall_forall in K. apply filter_ext_in. intros i Hi. symmetry. apply Hf. exact (or_core _ _ _ _ _ _ _ _ _ (sm_obj _ _ _ _ _ _ _ _ _ _ S i (K i Hi))).
Qed.
Lemma hit_same (o o' : tobj) : erase o = erase o' -> hit_counter_is_positive o = hit_counter_is_positive o'.
Proof. intros E. core E. reflexivity. Qed.
Lemma active_same s s' : sim s s' -> get_active_objects s' = get_active_objects s.
Proof.
  intros S. unfold get_active_objects. rewrite <- (sm_tracked _ _ _ _ _ _ _ _ _ _ S). apply filter_same; auto; [|exact (sm_known _ _ _ _ _ _ _ _ _ _ S)].
  intros o o' E. core E. reflexivity.
Qed.
Lemma Forall_incl {A} (P : A -> Prop) l l' : incl l l' -> Forall P l' -> Forall P l.
Proof. rewrite !Forall_forall. auto. Qed.
Lemma filter_incl' {A} (f : A -> bool) l : incl (filter f l) l.
Proof. intros x Hx. apply filter_In in Hx. tauto. Qed.

Lemma main_distance : distance_units dim u dh dr dh (tc_distance c) (tc_distance c').
Proof. exact (cu_distance _ _ _ _ _ _ Hc). Qed.
Lemma sim_main objects cands p s s' : Forall act objects -> Forall cand_ok cands -> (forall j, ~ In (CObj j) cands) -> sim s s' ->
  agree (update_objects_in_place (tc_rnd c) (tc_distance c) (tc_threshold c) objects cands p s)
        (update_objects_in_place (tc_rnd c') (tc_distance c') (tc_threshold c') objects cands p s').
Proof.
  intros Fo Fc Fn S. rewrite (cu_threshold _ _ _ _ _ _ Hc). destruct (cu_stops _ _ _ _ _ _ Hc) as (S1 & S2 & _ & _). rewrite (cu_threshold _ _ _ _ _ _ Hc) in S2.
  eapply (sim_phase laws rg dim Hdim u R HR dh dr reid base size (tc_rnd c) (tc_rnd c') dh (or_introl eq_refl) Uh); eauto.
  - intros d. apply (cu_rounding _ _ _ _ _ _ Hc).
  - exact main_distance.
  - intros M _ ci oi j i Hj. apply nth_error_In in Hj. elim (Fn j Hj).
Qed.
Lemma sim_reid objects matched p s s' : Forall act objects -> Forall act matched -> sim s s' -> agree (reid_phase c objects matched p s) (reid_phase c' objects matched p s').
Proof.
  intros Fo Fm S. unfold reid_phase. pose proof (cu_reid _ _ _ _ _ _ Hc) as CR.
  destruct (tc_reid_distance c) as [f|] eqn:Ef, (tc_reid_distance c') as [f'|]; try contradiction; [|apply agree_ret, S]. rewrite <- Ef in *.
  destruct (cu_stops _ _ _ _ _ _ Hc) as (_ & _ & S1 & S2). rewrite (cu_reid_threshold _ _ _ _ _ _ Hc) in *.
  assert (X : agree (update_objects_in_place (tc_rnd c) (ScalarDistance f) (tc_reid_threshold c) objects (map CObj matched) p s)
                    (update_objects_in_place (tc_rnd c') (ScalarDistance f') (dr (tc_reid_threshold c)) objects (map CObj matched) p s')).
  { eapply (sim_phase laws rg dim Hdim u R HR dh dr reid base size (tc_rnd c) (tc_rnd c') dr (or_intror eq_refl) Ur); eauto.
    - intros d. apply (cu_rounding _ _ _ _ _ _ Hc).
    - rewrite Forall_map. exact Fm.
    - right. rewrite Forall_map. apply Forall_forall. auto.
    - intros M EM ci oi j i Hj Hi L. pose proof (scalar_labels _ _ _ _ _ _ _ _ _ _ EM Hj Hi _ L) as EL.
      assert (W : reid) by (rewrite Ef; discriminate).
      assert (Hj' : act j). { apply nth_error_In in Hj. apply in_map_iff in Hj as (x & Ex & Hx). injection Ex as ->. rewrite Forall_forall in Fm. auto. }
      assert (Hi' : act i) by (apply nth_error_In in Hi; rewrite Forall_forall in Fo; auto).
      pose proof (sm_obj _ _ _ _ _ _ _ _ _ _ S j (known_of _ _ _ S Hj')) as Oj. pose proof (sm_obj _ _ _ _ _ _ _ _ _ _ S i (known_of _ _ _ S Hi')) as Oi.
      rewrite (or_size _ _ _ _ _ _ _ _ _ Oj W), (or_size _ _ _ _ _ _ _ _ _ Oi W). f_equal. cbn in EL. unfold obj_label in EL. congruence. }
  destruct X as [E X]. destruct (update_objects_in_place (tc_rnd c) _ _ _ _ p s) as [w1 [x1|e1]];
  destruct (update_objects_in_place (tc_rnd c') _ _ _ _ p s') as [w2 [x2|e2]]; cbn [fst snd] in E, X; try discriminate;
    [apply agree_ret, X|injection E as ->; apply agree_raise, X].
Qed.
Lemma sim_associate alive dead dets p s s' : Forall act alive -> Forall act dead -> sim s s' ->
  agree (associate c alive dead dets p T s) (associate c' alive dead dets p T' s').
Proof.
  intros Fa Fd S. unfold associate.
  assert (Fk : forall t t' : st, sim t t' -> Forall (known_in t) alive) by (intros t t' St; eapply Forall_impl; [|exact Fa]; intros i; apply (known_of _ _ _ St)).
  rewrite (filter_same s s' (fun o => negb (o_initializing o)) alive S) by (eauto; intros o o' E; core E; reflexivity).
  assert (Fdets : Forall cand_ok (map CDet dets)) by (rewrite Forall_map; apply Forall_forall; cbn; auto).
  assert (Fn : forall j, ~ In (CObj j) (map CDet dets)) by (intros j Hj; apply in_map_iff in Hj as (x & Ex & _); discriminate).
  match goal with |- context [update_objects_in_place (tc_rnd c) (tc_distance c) ?thr ?obs ?cs p s] =>
    pose proof (sim_main obs cs p s s' (Forall_incl _ _ _ (filter_incl' _ _) Fa) Fdets Fn S) as [E S'];
    destruct (update_objects_in_place (tc_rnd c) (tc_distance c) thr obs cs p s) as [t1 [[[um1 mo1] ui1]|e1]] eqn:U1;
    destruct (update_objects_in_place (tc_rnd c') (tc_distance c') (tc_threshold c') obs cs p s') as [t2 [[[um2 mo2] ui2]|e2]] eqn:U2;
    cbn [fst snd] in E, S'; try discriminate; injection E; clear E; intros; subst; [|apply agree_raise, S'] end.
  apply uip_unmatched_incl in U1 as (_ & Iui & Ium). clear U2.
  assert (Fum : Forall cand_ok um2) by (eapply Forall_incl; eauto).
  assert (Fn2 : forall j, ~ In (CObj j) um2) by (intros j Hj; apply (Fn j), Ium, Hj).
  assert (Fui : Forall act ui2) by (eapply Forall_incl; [exact Iui|eapply Forall_incl; [apply filter_incl'|exact Fa]]).
  rewrite (filter_same t1 t2 (fun o => o_initializing o) alive S') by (eauto; intros o o' E; core E; reflexivity).
  match goal with |- context [update_objects_in_place (tc_rnd c) (tc_distance c) ?thr ?obs ?cs p t1] =>
    pose proof (sim_main obs cs p t1 t2 (Forall_incl _ _ _ (filter_incl' _ _) Fa) Fum Fn2 S') as [E S''];
    destruct (update_objects_in_place (tc_rnd c) (tc_distance c) thr obs cs p t1) as [v1 [[[vm1 vo1] vi1]|e1]] eqn:V1;
    destruct (update_objects_in_place (tc_rnd c') (tc_distance c') (tc_threshold c') obs cs p t2) as [v2 [[[vm2 vo2] vi2]|e2]] eqn:V2;
    cbn [fst snd] in E, S''; try discriminate; injection E; clear E; intros; subst; [|apply agree_raise, S''] end.
  apply uip_unmatched_incl in V1 as (Ivo & _ & Ivm). clear V2.
  assert (Fvo : Forall act vo2) by (eapply Forall_incl; [exact Ivo|eapply Forall_incl; [apply filter_incl'|exact Fa]]).
  assert (Q : agree (reid_phase c (ui2 ++ dead) vo2 p v1) (reid_phase c' (ui2 ++ dead) vo2 p v2)) by (apply sim_reid; auto; apply Forall_app; auto).
  destruct Q as [E Q]. destruct (reid_phase c _ vo2 p v1) as [w1 [x1|e1]], (reid_phase c' _ vo2 p v2) as [w2 [x2|e2]]; cbn [fst snd] in E, Q; try discriminate;
    [|injection E as ->; apply agree_raise, Q].
  pose proof (sim_creates vm2 p w1 w2 Q) as [E' Q'].
  destruct (create_objects c vm2 p T w1) as [z1 [y1|e1]], (create_objects c' vm2 p T' w2) as [z2 [y2|e2]]; cbn [fst snd] in E', Q'; try discriminate;
    [|injection E' as ->; apply agree_raise, Q'].
  rewrite (active_same z1 z2 Q'). apply agree_ret, Q'.
Qed.

(** ** The beginning of a call *)
Lemma sim_steps objs : forall s s', sim s s' -> sim (step_objects T objs s) (step_objects T' objs s').
Proof.
  induction objs as [|i objs IH]; intros s s' S; cbn; auto. apply IH, sim_obj; auto. intros O. apply orel_ct; auto. eapply orel_step; eauto.
Qed.
Lemma sim_dets dets : forall s s', sim s s' ->
  sim (match T with None => s | Some T => update_dets_ct T dets s end) (match T' with None => s' | Some T' => update_dets_ct T' dets s' end).
Proof.
  destruct T as [T0|], T' as [T0'|]; cbn in HT; try contradiction; auto.
  induction dets as [|r dets IH]; intros s s' S; cbn; auto. apply IH. destruct (sm_shaped _ _ _ _ _ _ _ _ _ _ S r) as (A & B & L). destruct (HT _ B) as (X & Y & Z & _).
  apply sim_det; auto.
  - unfold det_update_ct, d_set_abs, det_in_units. cbn. rewrite Z. reflexivity.
  - split; [exact A|]. split; [exact X|]. cbn. rewrite Y. exact L.
Qed.
Lemma prune_same s s' : sim s s' -> prune c' s' = prune c s.
Proof.
  intros S. unfold prune. destruct (cu_same _ _ _ _ _ _ Hc) as (_ & _ & _ & _ & _ & C6). rewrite C6.
  rewrite <- (sm_tracked _ _ _ _ _ _ _ _ _ _ S). pose proof (sm_known _ _ _ _ _ _ _ _ _ _ S) as K.
  destruct (tc_reid_max c).
  - rewrite (filter_same s s' reid_hit_counter_is_positive (s_tracked s) S) by (auto; intros o o' E; core E; reflexivity).
    set (tr := filter _ (s_tracked s)). assert (Kt : Forall (known_in s) tr) by (eapply Forall_incl; [apply filter_incl'|exact K]).
    rewrite (filter_same s s' hit_counter_is_positive tr S) by (auto; intros o o' E; core E; reflexivity).
    rewrite (filter_same s s' (fun o => negb (hit_counter_is_positive o)) tr S) by (auto; intros o o' E; core E; reflexivity). reflexivity.
  - rewrite (filter_same s s' hit_counter_is_positive (s_tracked s) S) by (auto; intros o o' E; core E; reflexivity). reflexivity.
Qed.
End Call.
Lemma sim_base base base' s s' : UnitSim.sim dim u R dh dr reid base size s s' -> base' <= s_icount s -> UnitSim.sim dim u R dh dr reid base' size s s'.
Proof. intros [A B B1 C D E F G H I] L. split; auto. Qed.
Lemma dets_icount T dets : forall (s : st), s_icount (update_dets_ct T dets s) = s_icount s /\ s_tracked (update_dets_ct T dets s) = s_tracked s.
Proof. induction dets as [|r dets IH]; intros s; cbn; auto. destruct (IH (mod_det r (det_update_ct T) s)) as [A B]. rewrite A, B. auto. Qed.
Lemma sim_update dets p T T' s s' : ct_in_units dim u T T' -> UnitSim.sim dim u R dh dr reid 0 size s s' ->
  UnitSim.agree dim u R dh dr reid 0 size (update c (Some dets) p T s) (update c' (Some dets) p T' s').
Proof.
  intros HT S.
  assert (E : forall (cf : tconf FO) (Q : ct) (t : st), update cf (Some dets) p Q t =
    let '(alive, dead, t') := begin_update cf dets Q t in associate cf alive dead dets p Q t') by (intros cf [Q|] t; reflexivity).
  rewrite !E. unfold begin_update.
  pose proof (sim_dets 0 T T' HT dets s s' S) as S1.
  set (t := match T with None => s | Some T => update_dets_ct T dets s end) in *. set (t' := match T' with None => s' | Some T' => update_dets_ct T' dets s' end) in *.
  apply sim_base with (base' := s_icount t) in S1; [|lia]. rewrite (prune_same (s_icount t) t t' S1).
  pose proof (prune_spec c t) as PS. destruct (prune c t) as [[tr al] de]. destruct PS as (P1 & P2 & P3).
  pose proof (sm_known _ _ _ _ _ _ _ _ _ _ S1) as K.
  assert (Kt : Forall (known_in t) tr) by (subst tr; eapply Forall_incl; [apply filter_incl'|exact K]).
  assert (S2 := sim_tracked dim u R dh dr reid (s_icount t) size tr t t' S1 Kt).
  assert (S3 := sim_steps (s_icount t) T T' HT tr _ _ S2).
  assert (X : UnitSim.agree dim u R dh dr reid (s_icount t) size (associate c al de dets p T (step_objects T tr (s_set_tracked tr t)))
     (associate c' al de dets p T' (step_objects T' tr (s_set_tracked tr t')))).
  { apply sim_associate; auto; (eapply Forall_incl; [|exact Kt]); [rewrite P2|rewrite P3]; apply filter_incl'. }
  destruct X as [X1 X2]. split; auto. eapply sim_base; [exact X2|lia].
Qed.

Lemma put_units l : forall h h' : nat -> detection N, (forall r, h' r = det_in_units u (h r)) ->
  forall r, put h' (map (fun rd => (fst rd, det_in_units u (snd rd))) l) r = det_in_units u (put h l r).
Proof.
  unfold put. induction l as [|[q d] l IH]; intros h h' H r; cbn; auto. apply IH. intros x. unfold upd. destruct (Nat.eqb x q); auto.
Qed.
Lemma put_all (P : detection N -> Prop) l : forall h, (forall r, P (h r)) -> Forall (fun rd => P (snd rd)) l -> forall r, P (put h l r).
Proof.
  unfold put. induction l as [|[q d] l IH]; intros h H F r; cbn; auto. inversion F; subst. apply IH; auto. intros x. unfold upd. destruct (Nat.eqb x q); auto.
Qed.
Lemma sim_outcomes ins ins' : Forall2 (input_in_units dim u) ins ins' -> Forall (fun x => Forall (fun rd => det_sized c size (snd rd)) (in_new x)) ins ->
  forall s s', UnitSim.sim dim u R dh dr reid 0 size s s' ->
  Forall2 (outcome_in_units dim u dh dr) (outcomes c s ins) (outcomes c' s' ins').
Proof.
  induction 1 as [|x x' ins ins' Hx _ IH]; intros Fs s s' S; cbn [outcomes]; [constructor|]. inversion Fs as [|? ? Fx Fr]; subst.
  destruct Hx as (X1 & X2 & X3 & X4 & X5). rewrite X1, X3, X4.
  assert (S0 : UnitSim.sim dim u R dh dr reid 0 size (meanwhile s (put (s_heap s) (in_new x)) (s_gcount s))
     (meanwhile s' (put (s_heap s') (map (fun rd => (fst rd, det_in_units u (snd rd))) (in_new x))) (s_gcount s'))).
  { destruct S as [A B B1 C D E F G H I]. split; cbn; auto.
    - intros r. apply put_units; auto.
    - apply (put_all (det_shaped dim)); auto.
    - intros W. apply (put_all (fun d => List.length (d_points d) = size (d_label d))); auto. eapply Forall_impl; [|exact Fx]. intros rd Hrd. apply Hrd, W. }
  pose proof (sim_update (in_dets x) (in_period x) (in_ct x) (in_ct x') _ _ X5 S0) as [E1 S1]. constructor.
  - split.
    + symmetry. exact E1.
    + symmetry. apply (sm_tracked _ _ _ _ _ _ _ _ _ _ S1).
    + symmetry. apply (sm_count _ _ _ _ _ _ _ _ _ _ S1).
    + symmetry. apply (sm_gcount _ _ _ _ _ _ _ _ _ _ S1).
    + intros i Hi. pose proof (sm_known _ _ _ _ _ _ _ _ _ _ S1) as K. rewrite Forall_forall in K. eapply orel_units; eauto. apply (sm_obj _ _ _ _ _ _ _ _ _ _ S1 i). apply K, Hi.
    + apply (sm_heap _ _ _ _ _ _ _ _ _ _ S1).
  - apply IH; auto.
Qed.
Lemma new_sim h g dummy dummy' : (forall r, det_shaped dim (h r)) -> (forall r, det_sized c size (h r)) ->
  UnitSim.sim dim u R dh dr reid 0 size (new_tracker h g dummy) (new_tracker (fun r => det_in_units u (h r)) g dummy').
Proof. intros A B. split; cbn; auto. - intros W r. apply B, W. - intros i [X Y]. cbn in Y. lia. Qed.
Theorem tracking_in_units ins ins' h g dummy dummy' : (forall r, det_shaped dim (h r)) -> (forall r, det_sized c size (h r)) ->
  Forall2 (input_in_units dim u) ins ins' -> Forall (fun x => Forall (fun rd => det_sized c size (snd rd)) (in_new x)) ins ->
  Forall2 (outcome_in_units dim u dh dr) (outcomes c (new_tracker h g dummy) ins)
    (outcomes c' (new_tracker (fun r => det_in_units u (h r)) g dummy') ins').
Proof. intros A B C D. apply sim_outcomes; auto. apply new_sim; auto. Qed.
End Run.

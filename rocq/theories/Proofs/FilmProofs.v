(** The same world filmed by two cameras (C113). *)
From Coq Require Import ZArith Bool Arith String List Lia.
From Verif Require Import Model.Num Model.Base Model.Matching Model.Filter Model.Tracker Model.CameraMotion Proofs.TrackerFrame Proofs.Simulation Proofs.Simulation2
  Proofs.IsolationProofs Spec.CallSpec Spec.ExampleVideo Spec.MovingSpec Spec.FilmSpec Proofs.MovingProofs.
Import ListNotations.

Section F.
Context {N : Num} {FO : filter_ops N}.
Notation st := (st FO).
Notation tobj := (tobj FO).
Variable c : tconf FO.
Hypothesis absolute : measures_absolute c.

Definition everyone (r : nat) : Prop := True.
Definition any_points (r : nat) (p1 p2 a : points N) : Prop := True.
Definition any_abs (i : nat) (conf : oconf N) (a1 a2 : option (points N -> points N)) : Prop := True.
(** The objects of a call have the transformations of that call. *)
Definition this_abs (x : scene (N := N)) (act : nat -> Prop) (base : nat) (i : nat) (conf : oconf N) (a1 a2 : option (points N -> points N)) : Prop :=
  act i \/ base < i -> a1 = Some (ct_abs_to_rel (sc_first x)) /\ a2 = Some (ct_abs_to_rel (sc_second x)).
Variable h0 : nat -> detection N.
Notation related s1 s2 := (@Simulation.sim N FO everyone any_points any_abs True h0 h0 0 s1 s2).

Lemma estimates_pair (x : scene (N := N)) (o1 o2 : tobj) : erase o1 = erase o2 ->
  o_abs_to_rel o1 = Some (ct_abs_to_rel (sc_first x)) -> o_abs_to_rel o2 = Some (ct_abs_to_rel (sc_second x)) ->
  exists p, get_estimate o1 true = Ret p /\ get_estimate o2 true = Ret p /\
    estimate o1 = ct_abs_to_rel (sc_first x) p /\ estimate o2 = ct_abs_to_rel (sc_second x) p.
Proof.
  intros E H1 H2. destruct (core_fields _ _ E) as (E1 & _ & _ & _ & _ & _ & _ & _ & _ & _ & _ & _ & E13).
  unfold estimate, get_estimate, dim_z. rewrite H1, H2, E1, E13. eexists. repeat split; reflexivity.
Qed.

Section Call.
Variables (x : scene (N := N)) (dets : list nat) (act : nat -> Prop) (base : nat).
Hypothesis act_old : forall i, act i -> 1 <= i <= base.
Notation simc s1 s2 := (@Simulation.sim N FO everyone any_points (this_abs x act base) True h0 h0 base s1 s2).

Lemma film_det s1 s2 r : simc s1 s2 -> same_det (s_heap s1 r) (s_heap s2 r).
Proof. intros HS. eapply rel_same_det, (sm_in _ _ _ _ _ _ _ _ _ HS). exact I. Qed.
Lemma film_obj s1 s2 i : simc s1 s2 -> act i -> obj_same (view_obj s1 i) (view_obj s2 i).
Proof.
  intros HS Hi. assert (Hk : known_in s1 i) by (pose proof (sm_base _ _ _ _ _ _ _ _ _ HS); apply act_old in Hi; unfold known_in; lia).
  destruct (sm_obj _ _ _ _ _ _ _ _ _ HS i Hk) as [A B C D]. destruct (C (or_introl Hi)) as [C1 C2].
  destruct (core_fields _ _ A) as (E1 & _ & _ & _ & _ & E6 & _ & _ & _ & _ & _ & E12 & _).
  destruct (estimates_pair x _ _ A C1 C2) as (p & P1 & P2 & _). split; cbn.
  - apply erase_ct; auto.
  - exists p. auto.
  - rewrite <- E6. apply film_det, HS.
  - rewrite <- E12. generalize (o_past (s_store s1 i)). intros l. induction l; constructor; auto. apply film_det, HS.
Qed.
Lemma film_cand s1 s2 y : simc s1 s2 -> cand_ok (fun r => In r dets) act y -> cand_same (view_cand s1 y) (view_cand s2 y).
Proof. intros HS. destruct y as [r|i]; cbn; intros Hy; [apply film_det, HS|apply film_obj; auto]. Qed.
Lemma film_label s1 s2 y : simc s1 s2 -> cand_ok (fun r => In r dets) act y -> cand_label s1 y = cand_label s2 y.
Proof.
  intros HS Hy. pose proof (film_cand s1 s2 y HS Hy) as X. destruct y as [r|i]; cbn in *; [apply (sd_label _ _ X)|].
  pose proof (ob_object _ _ X) as Y. cbn in Y. exact (f_equal (fun o => oc_label (o_conf o)) Y).
Qed.
Lemma film_distances f : absolute_distance f ->
  @same_distances N FO everyone any_points (this_abs x act base) True h0 h0 (fun r => In r dets) act base (tc_rnd c) (ScalarDistance f).
Proof.
  intros Hf s1 s2 objects cands HS Fo Fc. cbn [get_distances]. rewrite Forall_forall in Fo, Fc. unfold scalar_distances.
  apply map_result_ext. intros y Hy. apply map_result_ext. intros i Hi. specialize (Fo i Hi). specialize (Fc y Hy).
  rewrite (film_label s1 s2 y HS Fc). change (obj_label s1 i) with (cand_label s1 (CObj i)). rewrite (film_label s1 s2 (CObj i) HS Fo).
  rewrite (Hf _ (view_cand s2 y) _ (view_obj s2 i) (film_cand s1 s2 y HS Fc) (film_obj s1 s2 i HS Fo)). reflexivity.
Qed.
End Call.

Lemma scene_related x (s1 s2 : st) : good_scene x -> related s1 s2 ->
  same_world x (first_call c s1 x) (second_call c s2 x) /\ related (fst (first_call c s1 x)) (fst (second_call c s2 x)).
Proof.
  intros (Hnd & Hgood) HR. set (dets := map fst (sc_new x)) in *. unfold first_call, second_call. fold dets. rewrite !update_call.
  set (new1 := map (fun rd => (fst rd, fst (snd rd))) (sc_new x)). set (new2 := map (fun rd => (fst rd, snd (snd rd))) (sc_new x)).
  set (u1 := meanwhile s1 (put (s_heap s1) new1) (s_gcount s1)). set (u2 := meanwhile s2 (put (s_heap s2) new2) (s_gcount s2)).
  set (T1 := sc_first x). set (T2 := sc_second x). set (t1 := detected (Some T1) dets u1). set (t2 := detected (Some T2) dets u2).
  assert (Hdets1 : map fst new1 = dets) by (unfold new1; rewrite map_map; reflexivity).
  assert (Hdets2 : map fst new2 = dets) by (unfold new2; rewrite map_map; reflexivity).
  destruct HR as [A B C D E F G H I].
  set (pa2 := fun (i : nat) (conf : oconf N) (a1 a2 : option (points N -> points N)) => i <= s_icount s1).
  assert (HS : @Simulation.sim N FO everyone any_points pa2 True h0 h0 (s_icount s1) t1 t2).
  { unfold t1, t2. cbn [detected]. destruct (detected_rest T1 dets u1) as (R1 & R2 & R3 & R4 & R5), (detected_rest T2 dets u2) as (Q1 & Q2 & Q3 & Q4 & Q5). split.
    - intros r _. rewrite !detected_heap. cbn [u1 u2 meanwhile s_heap]. destruct (in_dec Nat.eq_dec r dets) as [Hr|Hr].
      + assert (Ec : count_occ Nat.eq_dec dets r = 1).
        { apply (count_occ_In Nat.eq_dec) in Hr. pose proof (proj1 (NoDup_count_occ Nat.eq_dec dets) Hnd r). lia. }
        rewrite Ec. cbn [Nat.iter nat_rect]. apply in_map_iff in Hr as ([r' [d1 d2]] & E0 & Hr). cbn in E0. subst r'.
        rewrite (put_in new1 _ r d1); [|rewrite Hdets1; exact Hnd|unfold new1; apply in_map_iff; exists (r, (d1, d2)); auto].
        rewrite (put_in new2 _ r d2); [|rewrite Hdets2; exact Hnd|unfold new2; apply in_map_iff; exists (r, (d1, d2)); auto].
        rewrite Forall_forall in Hgood. destruct (Hgood _ Hr) as [[U1 U2] S1 S2 S3 S4]. cbn [fst snd] in *.
        assert (Ea1 : d_absolute_points d1 = d_points d1) by (rewrite U1; reflexivity).
        assert (Ea2 : d_absolute_points d2 = d_points d2) by (rewrite U2; reflexivity).
        assert (Eg1 : d_age d1 = None) by (rewrite U1; reflexivity). assert (Eg2 : d_age d2 = None) by (rewrite U2; reflexivity).
        split; cbn [det_update_ct d_set_abs d_scores d_label d_absolute_points d_age d_data d_points]; auto; [|congruence|exact Logic.I].
        rewrite Ea1, Ea2. exact S4.
      + rewrite (proj1 (count_occ_not_In Nat.eq_dec dets r) Hr). cbn [Nat.iter nat_rect].
        rewrite put_other by (rewrite Hdets1; exact Hr). rewrite put_other by (rewrite Hdets2; exact Hr). exact (A r Logic.I).
    - intros r Hr. destruct Hr. exact Logic.I.
    - intros i. unfold known_in. rewrite R1, R4, Q1. intros Hi. destruct (C i Hi) as [X1 X2 X3 X4]. split; auto. exact (proj2 Hi).
    - rewrite R2, Q2. exact D.
    - rewrite R2. eapply Forall_impl; [|exact E]. intros i. unfold known_in. rewrite R4. auto.
    - rewrite R3, Q3. exact F.
    - rewrite R4, Q4. exact G.
    - intros _. rewrite R5, Q5. apply H, Logic.I.
    - rewrite R4. cbn. lia. }
  assert (Hic : s_icount t1 = s_icount s1) by (unfold t1; rewrite sim_icount_detected; reflexivity).
  set (act := fun i => In i (survivors c t1)).
  assert (Hact : forall i, act i -> 1 <= i <= s_icount s1).
  { intros i Hi. unfold act, survivors in Hi. destruct (prune c t1) as [[tr al] de] eqn:Ep. apply prune_incl in Ep as (I1 & _).
    pose proof (sm_known _ _ _ _ _ _ _ _ _ HS) as K. rewrite Forall_forall in K. apply I1, K in Hi. unfold known_in in Hi. rewrite Hic in Hi. exact Hi. }
  assert (X : agree everyone any_points (this_abs x act (s_icount s1)) True h0 h0 (s_icount s1) (call c dets (sc_period x) (Some T1) u1) (call c dets (sc_period x) (Some T2) u2)).
  { pose proof (sim_call everyone any_points pa2 (this_abs x act (s_icount s1)) True h0 h0 c dets (sc_period x) (Some T1) (Some T2) u1 u2) as X. cbv zeta in X.
    fold t1 t2 in X. rewrite Hic in X. specialize (X HS). fold act in X. cbn [after_ct rel_of] in X. apply X; clear X.
    - intros r Hr. exact Logic.I.
    - intros i conf a1 a2 Hi P1 _. auto.
    - intros i conf a1 a2 Hi P1 _. auto.
    - intros i conf a1 a2 Hi P1 [Q|Q]; [contradiction|unfold pa2 in P1; lia].
    - intros i conf r w1 w2 HW Hr Hi Hdim _ _. auto.
    - destruct absolute as [(f & -> & Hf) _]. apply film_distances; auto.
    - intros f Hf. apply film_distances; auto. apply (ma_reid _ absolute f Hf). }
  destruct X as [X1 X2].
  assert (HT : forall i, In i (s_tracked (fst (call c dets (sc_period x) (Some T1) u1))) -> act i \/ s_icount s1 < i).
  { intros i Hi. apply call_tracked in Hi; [|exact E]. exact Hi. }
  pose proof (sm_known _ _ _ _ _ _ _ _ _ X2) as K. rewrite Forall_forall in K.
  split.
  - split; auto; try apply X2; auto.
    + intros i Hi. destruct (sm_obj _ _ _ _ _ _ _ _ _ X2 i Hi) as [Y1 Y2 Y3 Y4]. apply erase_ct; auto.
    + intros i Hi. destruct (sm_obj _ _ _ _ _ _ _ _ _ X2 i (K i Hi)) as [Y1 Y2 Y3 Y6]. destruct (Y3 (HT i Hi)) as [Z1 Z2]. apply estimates_pair; auto.
    + intros r. eapply rel_same_det, (sm_in _ _ _ _ _ _ _ _ _ X2). exact Logic.I.
  - eapply sim_params; [exact X2|unfold any_points; auto|unfold any_abs; auto|auto| |lia].
    intros r Hr. destruct Hr. exact Logic.I.
Qed.

Lemma films_related xs : Forall good_scene xs -> forall s1 s2, related s1 s2 ->
  Forall2 (fun x ab => same_world x (fst ab) (snd ab)) xs (combine (filming (first_call c) s1 xs) (filming (second_call c) s2 xs)).
Proof.
  induction 1 as [|y xs Hy Hxs IH]; intros s1 s2 HR; [constructor|]. destruct (scene_related y s1 s2 Hy HR) as [A B].
  cbn [filming combine]. constructor; [exact A|]. apply IH, B.
Qed.
End F.

Theorem two_cameras (N : Num) (FO : filter_ops N) (c : tconf FO) h g dummy xs : measures_absolute c -> Forall good_scene xs ->
  let s := MkSt h g (fun _ => dummy) [] 0 0 in
  Forall2 (fun x ab => same_world x (fst ab) (snd ab)) xs (combine (filming (first_call c) s xs) (filming (second_call c) s xs)).
Proof.
  intros Ha Hx s. apply (films_related c Ha h xs Hx). split; cbn; auto.
  - intros r _. split; reflexivity.
  - intros i [H1 H2]. cbn in H2. lia.
Qed.

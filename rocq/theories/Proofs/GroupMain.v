(** C104: groups that are far from each other do not interact. *)
From Coq Require Import ZArith Bool Arith String List Lia Permutation.
From Verif Require Import Model.Num Model.Base Model.Matching Model.Filter Model.Tracker Spec.MatchingSpec Spec.CallSpec Spec.ExampleVideo Spec.GroundTruthSpec Spec.LabelSpec Spec.GroupSpec.
From Verif Require Import Proofs.NumLaws Proofs.MatchingProofs Proofs.TrackerFrame Proofs.Identity Proofs.Effect Proofs.CallEffect Proofs.CallProps Proofs.CallTheorems3 Proofs.GroundTruth
  Proofs.LabelSim Proofs.LabelPhase Proofs.LabelMain.
Import ListNotations.
Local Open Scope nat_scope.

Section G.
Context {N : Num} (laws : NumLaws N) {FO : filter_ops N}.
Notation st := (st FO).
Variable group : nat -> bool.
Notation sim := (sim (FO:=FO) None group).

Lemma chosen_group L s1 s2 i : sim L s1 s2 -> 1 <= i <= s_icount s1 -> chosen L i = group (last_det s1 i).
Proof.
  intros S K. destruct (chosen L i) eqn:E; symmetry.
  - apply chosen_pair in E as [j Hj]. exact (sm_last _ _ _ _ _ S i j Hj).
  - pose proof (sm_rest _ _ _ _ _ S i K E) as F. inversion F; subst. assumption.
Qed.

Variable c : tconf FO.
Variable f : cview FO -> oview FO -> result (dval N).
Hypothesis Hr : rnd_ok (tc_rnd c).
Hypothesis Ed : tc_distance c = ScalarDistance f.
Hypothesis Nb : number_blind f.
Hypothesis Ab : age_blind f.

Lemma separate_apart L s1 obs rs : (forall i r, In i obs -> In r rs -> near c f s1 r i -> group r = group (last_det s1 i)) ->
  separate None group c L s1 obs (map CDet rs).
Proof.
  intros H s2 obs2 cs2 S K1 K2 R1 R2 M E. rewrite Ed in *. split; [|exact (scalar_copy _ _ _ _ _ _ _ _ _ _ _ _ Nb S R1 R2 E)].
  cbn in E. destruct (scalar_entries _ _ _ _ _ _ E) as [_ He]. intros a b x i Hc Hi Hn D. specialize (He a b x i Hc Hi).
  assert (X : exists r, In r rs /\ x = CDet r) by (apply nth_error_In in Hc; apply in_map_iff in Hc as (r & <- & Hr'); eauto).
  destruct X as (r & Hin & ->). apply nth_error_In in Hi. cbn [cand_label view_cand csel] in *.
  destruct (label_eqb (d_label (s_heap s1 r)) (obj_label s1 i)) eqn:El.
  - apply label_eqb_eq in El. cbn in He. destruct (f (VDet (s_heap s1 r)) (view_obj s1 i)) as [d|e] eqn:Ef; [|discriminate]. injection He as He.
    apply Hn. rewrite (chosen_group L s1 s2 i S); [|rewrite Forall_forall in K1; auto]. apply H; auto. split; [exact El|]. exists d. rewrite He. auto.
  - cbn in He. injection He as He. rewrite <- He in D. exact (pos_inf_not_below _ D).
Qed.

Lemma call_apart fr L : tracker_state c (f_pre fr) -> apart group c f fr ->
  call_separate None group c L (fst (fst (begin_update c (f_dets fr) (f_ct fr) (f_pre fr)))) (f_dets fr) (f_period fr) (snd (begin_update c (f_dets fr) (f_ct fr) (f_pre fr))).
Proof.
  destruct fr as [dets p ct s s' out]. unfold apart. cbn [f_dets f_ct f_pre f_period]. intros Ht Ap. apply tracker_state_good in Ht as [T _].
  destruct (begin_update c dets ct s) as [[al de] s0] eqn:Eb. cbn [fst snd] in *. apply begin_update_effect in Eb as (-> & -> & Hst); [|apply (ti_nodup _ T)].
  assert (K : forall i, In i (alive c s) -> s_store s0 i = obj_update_ct ct (tracker_step (s_store s i))) by (intros i Hi; apply (sp_step _ _ _ _ _ Hst), alive_kept, Hi).
  assert (Kl : forall i, In i (alive c s) -> last_det s0 i = last_det s i) by (intros i Hi; unfold last_det; rewrite (K i Hi); destruct ct; reflexivity).
  assert (E1 : filter (fun i => negb (o_initializing (s_store s0 i))) (alive c s) = inits c s).
  { apply filter_ext_in. intros i Hi. rewrite (K i Hi), step_initializing. reflexivity. }
  assert (Near : forall i r, In i (alive c s) -> In r dets -> near c f s0 r i -> group r = group (last_det s0 i)).
  { intros i r Hi Hr' Hn. rewrite (Kl i Hi). apply Ap; auto. apply matchable_alive, Hi. }
  split; rewrite E1.
  - apply separate_apart. intros i r Hi Hr' Hn. apply Near; auto. apply inits_alive, Hi.
  - intros t1 um mo ui U. apply (uip_dets laws) in U as (M1 & P1 & sa1 & Hp1 & Hh1 & -> & _ & _); auto.
    assert (Ni : NoDup (inits c s)) by (unfold inits, alive, kept; repeat apply NoDup_filter; apply (ti_nodup _ T)).
    assert (PH1 : phase_hits c (inits c s) dets p s0 t1 (map (mk_hit M1 (inits c s) dets) P1) (not_in_idxs (map fst P1) 0 dets) (not_in_idxs (map snd P1) 0 (inits c s))).
    { constructor. exists M1, P1, sa1. auto. }
    destruct (phase_hits_facts _ _ _ _ _ _ _ _ _ Ni PH1) as (_ & A2 & _ & A4 & _ & _ & A7 & A8 & A9 & _).
    assert (Hin : forall i, In i (filter (fun i => o_initializing (s_store t1 i)) (alive c s)) -> In i (alive c s) /\ s_store t1 i = s_store s0 i).
    { intros i Hi. apply filter_In in Hi as [Hi X]. split; [exact Hi|]. apply A9. intros Hin.
      assert (Y : o_initializing (s_store t1 i) = o_initializing (s_store s0 i)).
      { destruct (in_dec Nat.eq_dec i (map h_obj (map (mk_hit M1 (inits c s) dets) P1))) as [Hh|Hh]; [|exact (upto_min_initializing _ _ (A8 i Hh))].
        apply in_map_iff in Hh as ([[i' r] d] & Eq & Hh). cbn in Eq. subst i'. destruct (A7 _ _ _ Hh) as (om & Hum & o1 & Hr1 & E). rewrite E. cbn.
        rewrite (hr_init _ _ _ _ _ Hr1), (upto_min_initializing _ _ Hum). 
        rewrite (K i Hi), step_initializing. unfold inits in Hin. apply filter_In in Hin as [_ Z]. apply negb_true_iff in Z. rewrite Z. reflexivity. }
      rewrite Y, (K i Hi), step_initializing in X. unfold inits in Hin. apply filter_In in Hin as [_ Z]. rewrite X in Z. discriminate. }
    apply separate_apart. intros i r Hi Hr' Hn. destruct (Hin i Hi) as [Ha Es]. apply (near_same c f s0 t1 r i Ab A4 Es) in Hn.
    replace (last_det t1 i) with (last_det s0 i) by (unfold last_det; rewrite Es; reflexivity). apply Near; auto.
    eapply Permutation_in; [symmetry; exact A2|]. apply in_app_iff; auto.
Qed.
End G.

Section Groups.
Context {N : Num} (laws : NumLaws N) {FO : filter_ops N}.

Lemma out_group (group : nat -> bool) L (R : nat -> nat -> Prop) (s1 s2 : st FO) l1 l2 : sim None group L s1 s2 -> (forall i j, In (i, j) L -> R i j) ->
  Forall (fun i => 1 <= i <= s_icount s1) l1 -> relO L l1 l2 -> group_part group R s1 s2 l1 l2.
Proof.
  intros S HR K RO. unfold group_part. rewrite (filter_ext_in _ (chosen L)).
  - unfold relO in RO. clear K. induction RO; constructor; auto. split; [apply HR; exact H|apply (pair_view None group L); [exact S|exact H]].
  - intros i Hi. rewrite Forall_forall in K. symmetry. apply (chosen_group group L s1 s2 i S), K, Hi.
Qed.
Lemma video_states (c : tconf FO) s fs : tracker_state c s -> video c s fs -> forall fr, In fr fs -> tracker_state c (f_pre fr).
Proof.
  intros Ht V. revert Ht. induction V as [s|s heap g dets p ct s' out fs Hg E V IH]; intros Ht fr Hin; [destruct Hin|].
  destruct Hin as [<-|Hin]; [cbn; apply ts_meanwhile; auto|]. apply IH; auto.
  change s' with (fst (s', @Ret (list nat) out)). rewrite <- E. apply ts_update, ts_meanwhile; auto.
Qed.
Theorem groups_isolated (c : tconf FO) f (group : nat -> bool) h g g' dummy dummy' ins fa :
  rnd_ok (tc_rnd c) -> tc_distance c = ScalarDistance f -> number_blind f -> age_blind f -> tc_reid_distance c = None ->
  play c (new_tracker h g dummy) ins = Some fa ->
  (forall fr, In fr fa -> apart group c f fr) ->
  exists R fb, play c (new_tracker h g' dummy') (map (only group) ins) = Some fb /\ one_to_one_rel R /\ Forall2 (group_parts group R) fa fb.
Proof.
  intros Hr Ed Nb Ab Nre E Ap. destruct (play_related laws None group c Hr) with (L := @nil (nat * nat)) (s1 := new_tracker h g dummy) (s2 := new_tracker h g' dummy') (ins := ins) (fa := fa)
    as (L' & fb & A & _ & B & D); auto.
  - congruence.
  - split; cbn; auto; try (intros; lia); try (intros; contradiction). discriminate.
  - discriminate.
  - intros fr Hf L s2 _. apply (call_apart laws group c f Hr Ed Nb Ab); [|apply Ap, Hf].
    apply (video_states c (new_tracker h g dummy) fa); [apply ts_new|apply play_video in E; exact E|exact Hf].
  - exists (pairL L'), fb. split; [exact A|]. split; [exact B|]. clear - D. induction D as [|x y fa fb (L1 & I1 & S1 & K1 & R1) D IH]; constructor; auto.
    split; apply (out_group group L1); auto; try (intros i j H; apply I1, H); [exact (sm_known _ _ _ _ _ S1)|exact (sm_trk _ _ _ _ _ S1)].
Qed.
End Groups.

(** A decision procedure, for examples. *)
Section Check.
Context {N : Num} {FO : filter_ops N}.
Variable group : nat -> bool.
Definition apartb (c : tconf FO) (f : cview FO -> oview FO -> result (dval N)) (fr : CallSpec.frame FO) : bool :=
  forallb (fun i => forallb (fun r => negb (nearb c f (snd (begin_update c (f_dets fr) (f_ct fr) (f_pre fr))) r i) || Bool.eqb (group r) (group (last_det (f_pre fr) i)))
    (f_dets fr)) (alive c (f_pre fr)).
Lemma apartb_ok c f fr : apartb c f fr = true -> apart group c f fr.
Proof.
  unfold apartb. rewrite forallb_forall. intros H i r Hm Hr Hn. apply matchable_alive in Hm. specialize (H i Hm). rewrite forallb_forall in H. specialize (H r Hr).
  apply nearb_ok in Hn. rewrite Hn in H. apply Bool.eqb_prop, H.
Qed.
End Check.

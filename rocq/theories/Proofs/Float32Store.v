(** C101: consequences of rounding to nearest, and the distances that the objects remember. *)
From Coq Require Import ZArith QArith Reals Qreals Bool List Lia Lra.
From Flocq Require Import Core.
From Verif Require Import Model.Num Model.Base Model.Matching Model.Filter Model.Tracker Model.Float32 Spec.MatchingSpec Spec.CallSpec Spec.PhasesSpec Spec.Float32Spec
  Proofs.Effect Proofs.Float32Nearest Proofs.PhasesProofs Proofs.UnitRun Proofs.NumLaws Proofs.Float32Proofs.
Import ListNotations.
Local Open Scope R_scope.

Local Instance prec24 : Prec_gt_0 24 := eq_refl.
Lemma powerRZ_bpow e : powerRZ 2 e = bpow radix2 e.
Proof. symmetry. apply bpow_powerRZ. Qed.
Lemma float32_format x : float32 x -> generic_format radix2 (FLT_exp (-149) 24) x.
Proof.
  intros (m & e & E & Hm & He & _). apply generic_format_FLT. apply FLT_spec with (Float radix2 m e); cbn [Fnum Fexp]; auto.
  rewrite E, powerRZ_bpow. reflexivity.
Qed.
Lemma format_float32 x : generic_format radix2 (FLT_exp (-149) 24) x -> Rabs x < bpow radix2 128 -> float32 x.
Proof.
  intros F L. apply FLT_format_generic in F; [|reflexivity]. destruct F as [[m e] E Hm He]. cbn [Fnum Fexp] in *.
  exists m, e. rewrite powerRZ_bpow. split; [exact E|]. split; [exact Hm|]. split; [exact He|]. rewrite powerRZ_bpow. exact L.
Qed.
Lemma nearest_format x : generic_format radix2 (FLT_exp (-149) 24) (float32_nearest x).
Proof. apply generic_format_round; typeclasses eauto. Qed.
Lemma nearest_best x y : generic_format radix2 (FLT_exp (-149) 24) y -> Rabs (float32_nearest x - x) <= Rabs (y - x).
Proof.
  intros F. destruct (round_N_pt radix2 (FLT_exp (-149) 24) (fun z => negb (Z.even z)) x) as [_ H]. apply H. exact F.
Qed.

Theorem store_closest q r : round32 (DFin (q : QNum)) = DFin (r : QNum) -> float32 (Q2R r) /\ forall y, float32 y -> Rabs (Q2R r - Q2R q) <= Rabs (y - Q2R q).
Proof.
  intros E. pose proof (round32_nearest q) as H. rewrite E in H. destruct H as [L H]. split.
  - apply format_float32; rewrite H; auto. apply nearest_format.
  - intros y F. rewrite H. apply nearest_best, float32_format, F.
Qed.
Theorem store_exact q : float32 (Q2R q) -> exists r, round32 (DFin (q : QNum)) = DFin (r : QNum) /\ r == q.
Proof.
  intros F. pose proof (round32_nearest q) as H. assert (E : float32_nearest (Q2R q) = Q2R q).
  { apply round_generic; [typeclasses eauto|]. apply float32_format, F. }
  destruct F as (m & e & _ & _ & _ & L). rewrite powerRZ_bpow in L. apply Rabs_lt_inv in L. unfold stored_as in H. rewrite E in H.
  destruct (round32 (DFin (q : QNum))) as [| |r|].
  - destruct H.
  - lra.
  - exists r. split; [reflexivity|]. apply eqR_Qeq. apply H.
  - lra.
Qed.
Theorem store_order q q' : (q <= q')%Q -> dle (round32 (DFin (q : QNum))) (round32 (DFin (q' : QNum))).
Proof.
  intros L. pose proof (round32_nearest q) as H. pose proof (round32_nearest q') as H'.
  assert (M : float32_nearest (Q2R q) <= float32_nearest (Q2R q')).
  { apply round_le; try typeclasses eauto. apply Qle_Rle, L. }
  pose proof (bpow_pos 128) as P. unfold dle.
  destruct (round32 (DFin (q : QNum))) as [| |r|]; destruct (round32 (DFin (q' : QNum))) as [| |r'|]; cbn [stored_as] in H, H'; try reflexivity; try (destruct H; fail); try (destruct H'; fail).
  - destruct H as [A _]. apply Rabs_lt_inv in A. lra.
  - destruct H as [_ H], H' as [_ H']. cbn [dltb]. change (negb (Qle_bool r r') = false). apply negb_false_iff, Qle_bool_iff, Rle_Qle. lra.
  - lra.
  - destruct H' as [A _]. apply Rabs_lt_inv in A. lra.
Qed.

Section T.
Context {FO : filter_ops QNum}.
Lemma scalar_pair f (s : st FO) obs ds M a b thr : scalar_distances round32 f s obs (map (@CDet) ds) = Ret M -> (a < length ds)%nat -> (b < length obs)%nat ->
  dlt (entry M a b) thr -> exists x, f (VDet (s_heap s (nth a ds O))) (view_obj s (nth b obs O)) = Ret x /\ entry M a b = round32 x.
Proof.
  intros E Ha Hb L. unfold scalar_distances in E.
  assert (X : nth_error (map CDet ds) a = Some (CDet (nth a ds O))) by (rewrite nth_error_map, (nth_error_nth' ds O Ha); reflexivity).
  destruct (map_result_nth _ _ _ _ _ E X) as (row & Er & Nr). destruct (map_result_nth _ _ _ _ _ Er (nth_error_nth' obs O Hb)) as (v & Ev & Nv).
  assert (Ent : entry M a b = v) by (unfold entry; rewrite (nth_error_nth _ _ _ Nr), (nth_error_nth _ _ _ Nv); reflexivity).
  rewrite Ent in *. destruct (negb (label_eqb _ _)).
  - injection Ev as <-. unfold dlt in L. cbn in L. exfalso. revert L. destruct thr; intros L; discriminate L.
  - cbn [view_cand] in Ev. destruct (f _ _) as [x|e]; [|discriminate]. injection Ev as <-. exists x. auto.
Qed.
Lemma remembers_intro f (s0 s1 s' : st FO) r i x : s_store s1 i = s_store s0 i -> (forall r, upto_age (s_heap s0 r) (s_heap s1 r)) ->
  f (VDet (s_heap s1 r)) (view_obj s1 i) = Ret x -> last_distance s' i = Some (round32 x) -> remembers f s0 s' r i.
Proof.
  intros A B C D. exists s1, x. split; auto. split; auto. split; auto. destruct x as [| |q|]; auto.
  exists (round32 (DFin q)). split; auto. apply round32_nearest.
Qed.
Theorem call_remembers (c : tconf FO) f dets p ct (s s' : st FO) out :
  tc_rnd c = round32 -> tc_distance c = ScalarDistance f -> tracker_state c s -> update c (Some dets) p ct s = (s', Ret out) ->
  exists ini uni M1 M2 P1 P2, let s0 := snd (begin_update c dets ct s) in let rest := others (map fst P1) 0 dets in
    two_phases c dets s s0 s' ini uni M1 M2 P1 P2 /\
    (forall a b, In (a, b) P1 -> remembers f s0 s' (nth a dets O) (nth b ini O)) /\
    (forall a b, In (a, b) P2 -> remembers f s0 s' (nth a rest O) (nth b uni O)).
Proof.
  intros Ern Ed T E. assert (Hr : rnd_ok (tc_rnd c)) by (rewrite Ern; exact round32_not_nan).
  destruct (call_distances QNum_laws c dets p ct s s' out Hr T E) as (ini & uni & M1 & M2 & P1 & P2 & TP & DR).
  exists ini, uni, M1, M2, P1, P2. cbv zeta. split; [exact TP|]. split; intros a b Hab.
  - destruct (tp_match1 _ _ _ _ _ _ _ _ _ _ _ TP) as (_ & IR & BL & _). destruct (IR _ _ Hab) as [Ha Hb].
    assert (Hd : dets <> []) by (intros ->; cbn in Ha; lia). pose proof (tp_matrix1 _ _ _ _ _ _ _ _ _ _ _ TP Hd) as EM. rewrite Ern, Ed in EM.
    destruct (scalar_pair f _ ini dets M1 a b _ EM Ha Hb (BL _ _ Hab)) as (x & Ef & Ee). eapply remembers_intro; [reflexivity|intros; repeat split|exact Ef|].
    rewrite <- Ee. apply (dr_last1 _ _ _ _ _ _ _ _ _ _ DR). exact Hab.
  - destruct (tp_match2 _ _ _ _ _ _ _ _ _ _ _ TP) as (_ & IR & BL & _). destruct (IR _ _ Hab) as [Ha Hb].
    assert (Hd : others (map fst P1) 0 dets <> []) by (intros Z; rewrite Z in Ha; cbn in Ha; lia). destruct (tp_matrix2 _ _ _ _ _ _ _ _ _ _ _ TP Hd) as (s1 & St & Hp & EM). rewrite Ern, Ed in EM.
    destruct (scalar_pair f _ uni _ M2 a b _ EM Ha Hb (BL _ _ Hab)) as (x & Ef & Ee). eapply remembers_intro; [apply St, nth_In, Hb|exact Hp|exact Ef|].
    rewrite <- Ee. apply (dr_last2 _ _ _ _ _ _ _ _ _ _ DR). exact Hab.
Qed.
End T.

Lemma store_collapses : exists q q' : Q, (q < q')%Q /\ round32 (DFin (q : QNum)) = round32 (DFin (q' : QNum)).
Proof. exists (inject_Z (2 ^ 24)), (inject_Z (2 ^ 24 + 1)). split; vm_compute; reflexivity. Qed.
Lemma five_eighths : float32 (Q2R (5 # 8)).
Proof.
  exists 5%Z, (-3)%Z. split; [rewrite powerRZ_bpow; unfold Q2R; cbn [Qnum Qden bpow]; simpl Z.pow_pos; lra|]. split; [reflexivity|]. split; [discriminate|]. rewrite Rabs_pos_eq by (unfold Q2R; cbn; lra).
  apply Rlt_trans with (bpow radix2 1); [unfold Q2R; cbn [Qnum Qden bpow]; simpl Z.pow_pos; lra|]. rewrite powerRZ_bpow. apply bpow_lt. reflexivity.
Qed.

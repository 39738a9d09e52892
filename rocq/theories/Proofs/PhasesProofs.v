(** The three association steps of a call, with the exact matching and the recorded distances. *)
From Coq Require Import ZArith Bool Arith String List Lia Permutation Sorting.Sorted.
From Verif Require Import Model.Num Model.Base Model.Matching Model.Filter Model.Tracker
  Spec.MatchingSpec Spec.IdentitySpec Spec.CallSpec Spec.PhasesSpec Proofs.NumLaws Proofs.MatchingProofs Proofs.GreedyProofs
  Proofs.TrackerFrame Proofs.Identity
  Proofs.Effect Proofs.CallEffect Proofs.CallProps Proofs.CallTheorems Proofs.CallTheorems2 Proofs.CallTheorems3.
Import ListNotations.

Section Phases.
Context {N : Num} {FO : filter_ops N} (laws : NumLaws N).
Notation st := (st FO).
Notation tobj := (tobj FO).

(* ---- column minima ---- *)
Lemma col_min_spec n m (M : matrix N) b : rect n m M -> nan_free M -> 0 < n -> b < m ->
  column_min n (entry M) b (col_min M b).
Proof.
  intros H Hn Hpos Hb. unfold col_min.
  assert (E : map (fun r => nth b r DNaN) M = map (fun a => entry M a b) (seq 0 n)).
  { destruct H as [H _]. subst n. clear. unfold entry.
    rewrite <- (map_map (fun a => nth a M []) (fun r => nth b r DNaN)). f_equal.
    clear. induction M as [|r M IH]; cbn; auto. f_equal. rewrite <- seq_shift, map_map. exact IH. }
  rewrite E. destruct n as [|n]; [lia|]. cbn [seq map].
  set (l := map (fun a => entry M a b) (seq 1 n)).
  assert (HF : Forall (fun y : dval N => dis_nan y = false) (entry M 0 b :: l)).
  { apply Forall_forall. intros y Hy.
    assert (exists a, a < S n /\ y = entry M a b) as (a & Ha & ->).
    { destruct Hy as [<-|Hy]; [exists 0; split; auto; lia|]. apply in_map_iff in Hy as (a & <- & Ha).
      apply in_seq in Ha. exists a. split; auto; lia. }
    apply (proj1 (nan_free_entry _ _ M H) Hn); auto. }
  inversion HF; subst. destruct (list_min_spec laws l (entry M 0 b)) as (A & B & C); auto.
  split.
  - destruct A as [A|A]; [exists 0; split; auto; lia|]. apply in_map_iff in A as (a & A & Ha).
    apply in_seq in Ha. exists a. split; auto; lia.
  - intros a Ha. unfold dle. apply C. destruct a as [|a]; [left; auto|]. right. apply in_map_iff. exists (S a). split; auto.
    apply in_seq. lia.
Qed.

Lemma set_min_distances_at thr M objects : NoDup objects -> forall k (s : st) b i, nth_error objects b = Some i ->
  s_store (set_min_distances thr M k objects s) i =
  set_min_distance (if dltb (col_min M (k + b)) thr then Some (col_min M (k + b)) else None) (s_store s i).
Proof.
  induction 1 as [|x l Hx Hnd IH]; intros k s b i Hb; [destruct b; discriminate|].
  cbn [set_min_distances]. destruct b as [|b].
  - injection Hb as ->. rewrite Nat.add_0_r.
    match goal with |- s_store (set_min_distances _ _ _ _ ?t) i = _ =>
      rewrite (mf_other _ _ _ (set_min_distances_frame thr M l (S k) t)) by auto end.
    cbn. apply upd_same.
  - cbn in Hb. rewrite (IH (S k) _ b i Hb). replace (k + S b) with (S k + b) by lia.
    f_equal. cbn. apply upd_other. intros ->. apply Hx. eapply nth_error_In; eauto.
Qed.

Lemma dtruth_cells n m (M : matrix N) : rect n m M ->
  (existsb dtruth (List.concat M) = true <-> exists a b, a < n /\ b < m /\ dtruth (entry M a b) = true).
Proof.
  intros H. rewrite existsb_exists. split.
  - intros (x & Hx & Ex). apply (in_concat_entry n m M x H) in Hx as (a & b & Ha & Hb & ->). eauto.
  - intros (a & b & Ha & Hb & E). exists (entry M a b). split; auto. eapply entry_in_concat; eauto.
Qed.

Lemma phase_min_law rnd dist thr objects cands (s : st) M pairs s1 b :
  NoDup objects -> cands <> [] -> b < List.length objects ->
  phase rnd dist thr objects cands s M pairs s1 ->
  min_law (List.length cands) (List.length objects) (entry M) thr b
    (o_min_distance (s_store s (nth b objects 0))) (o_min_distance (s_store s1 (nth b objects 0))).
Proof.
  intros Hnd Hne Hb P. pose proof (ph_rect _ _ _ _ _ _ _ _ _ P Hne) as HM. pose proof (ph_nan _ _ _ _ _ _ _ _ _ P) as Hn.
  destruct (ph_exact _ _ _ _ _ _ _ _ _ P Hne) as [_ Es1]. rewrite Es1. clear Es1.
  assert (Hb' : nth_error objects b = Some (nth b objects 0)) by (apply nth_error_nth'; auto).
  split.
  - intros Ht. apply (proj2 (dtruth_cells _ _ M HM)) in Ht. rewrite Ht.
    exists (col_min M b). split; [eapply col_min_spec; eauto; destruct cands; [contradiction|cbn; lia]|].
    rewrite (set_min_distances_at thr M objects Hnd 0 s b _ Hb'). cbn [Nat.add o_min_distance set_min_distance].
    unfold dlt. destruct (dltb (col_min M b) thr); split; intros X; try reflexivity; try discriminate; exfalso; auto.
  - intros Ht. destruct (existsb dtruth (List.concat M)) eqn:Ed; [|reflexivity].
    apply (proj1 (dtruth_cells _ _ M HM)) in Ed as (x & y & Hx & Hy & E). rewrite Ht in E by auto. discriminate.
Qed.

Lemma phase_greedy rnd dist thr objects cands (s : st) M pairs s1 : rnd_ok rnd ->
  phase rnd dist thr objects cands s M pairs s1 ->
  greedy_all (List.length cands) (List.length objects) (entry M) thr pairs.
Proof.
  intros Hr P. destruct cands as [|c0 cands].
  - destruct (ph_empty _ _ _ _ _ _ _ _ _ P eq_refl) as [-> _]. constructor. intros i j [].
  - assert (Hne : c0 :: cands <> []) by discriminate.
    destruct (ph_exact _ _ _ _ _ _ _ _ _ P Hne) as [(dis & ois & E & ->) _].
    eapply (match_greedy laws); eauto; [apply (ph_rect _ _ _ _ _ _ _ _ _ P Hne)|apply P|].
    rewrite Hr. apply dis_nan_succ.
Qed.

Lemma sorted_filter (f : nat -> bool) l : StronglySorted lt l -> StronglySorted lt (filter f l).
Proof.
  induction 1 as [|x l Hs IH Hx]; cbn; [constructor|]. destruct (f x); auto. constructor; auto.
  rewrite Forall_forall in *. intros y Hy. apply filter_In in Hy. apply Hx. tauto.
Qed.

Lemma hit_last_distance h p r d (o o' : tobj) : hit_obj_rel h p r d o o' -> o_last_distance o' = Some d.
Proof. intros (o1 & F1 & ->). reflexivity. Qed.
Lemma hit_min_distance h p r d (o o' : tobj) : hit_obj_rel h p r d o o' -> o_min_distance o' = o_min_distance o.
Proof. intros (o1 & F1 & ->). cbn. apply (hr_min_distance _ _ _ _ _ F1). Qed.
Lemma upto_min_last_distance (o o' : tobj) : upto_min o o' -> o_last_distance o' = o_last_distance o.
Proof. intros [m ->]. reflexivity. Qed.
Lemma step_last_distance ct (o : tobj) : o_last_distance (obj_update_ct ct (tracker_step o)) = o_last_distance o.
Proof. destruct ct; reflexivity. Qed.
Lemma step_min_distance ct (o : tobj) : o_min_distance (obj_update_ct ct (tracker_step o)) = o_min_distance o.
Proof. destruct ct; reflexivity. Qed.

Lemma retired_dead c (s : st) i : In i (dead c s) <-> retired c s i.
Proof.
  unfold dead, kept, retired, hit_counter_is_positive, reid_hit_counter_is_positive, hit_counter, tracked.
  rewrite !filter_In, negb_true_iff. destruct (tc_reid_max c) as [r|].
  - rewrite Z.leb_gt. destruct (o_reid (s_store s i)) as [q|]; [rewrite Z.leb_le|]; intuition (try discriminate).
  - intuition congruence.
Qed.

Theorem call_phases_good c dets p ct (s s' : st) out : rnd_ok (tc_rnd c) -> good c s ->
  update c (Some dets) p ct s = (s', Ret out) ->
  exists ini uni M1 M2 P1 P2,
    two_phases c dets s (snd (begin_update c dets ct s)) s' ini uni M1 M2 P1 P2 /\
    distances_recorded c dets s s' ini uni M1 M2 P1 P2 /\
    exists old lost fresh M3 P3,
      reidentification c s (snd (begin_update c dets ct s)) s' ini uni P1 P2 old lost fresh M3 P3.
Proof.
  intros Hr [T C] E.
  destruct (update_effect laws _ _ _ _ _ _ _ Hr (ti_nodup _ T) E)
    as (s0 & s1 & s2 & s3 & H1 & H2 & G & rest1 & news & un1 & He & Ho & Es0). cbn [dets_of] in *.
  pose proof (effect_summary _ _ _ _ _ _ _ _ _ _ _ _ _ _ _ _ T He) as S.
  destruct He as [ST PH1 (un2 & PH2) PM CF _].
  assert (Nk : NoDup (kept c s)) by (apply NoDup_filter, (ti_nodup _ T)).
  assert (Na : NoDup (alive c s)) by (apply NoDup_filter; auto).
  assert (Ni : NoDup (inits c s)) by (apply NoDup_filter; auto).
  assert (Nu : NoDup (uninits c s)) by (apply NoDup_filter; auto).
  assert (Nd : NoDup (dead c s)) by (apply NoDup_filter; auto).
  destruct (phase_hits_facts _ _ _ _ _ _ _ _ _ Ni PH1) as (A1 & A2 & A3 & A4 & A5 & A6 & A7 & A8 & A9 & A10).
  destruct (phase_hits_facts _ _ _ _ _ _ _ _ _ Nu PH2) as (B1 & B2 & B3 & B4 & B5 & B6 & B7 & B8 & B9 & B10).
  destruct PH1 as [(M1 & P1 & sa1 & Ph1 & EH1 & Hh & -> & ->)].
  destruct PH2 as [(M2 & P2 & sa2 & Ph2 & EH2 & Hh2 & -> & _)].
  pose proof (hits_effect _ _ _ _ Hh A1) as HF1. pose proof (hits_effect _ _ _ _ Hh2 B1) as HF2.
  pose proof (ph_final _ _ _ _ _ _ _ _ _ Ph1) as (F1 & F2 & F3 & F4 & F5).
  pose proof (ph_final _ _ _ _ _ _ _ _ _ Ph2) as (K1 & K2 & K3 & K4 & K5).
  rewrite <- !others_eq in *. rewrite map_length in *.
  set (rest := others (map fst P1) 0 dets) in *.
  assert (Hval : forall i, In i (kept c s) -> valid s i).
  { intros i Hi. apply kept_tracked in Hi. apply (valid_tracked _ _ T Hi). }
  assert (O1 : map h_obj H1 = map (fun q => nth (snd q) (inits c s) 0) P1) by (subst H1; rewrite mk_hit_obj, map_map; reflexivity).
  assert (O2 : map h_obj H2 = map (fun q => nth (snd q) (uninits c s) 0) P2) by (subst H2; rewrite mk_hit_obj, map_map; reflexivity).
  assert (Hhit1 : forall a b, In (a, b) P1 -> In (nth b (inits c s) 0, nth a dets 0, entry M1 a b) H1).
  { intros a b Hab. rewrite EH1. apply in_map_iff. exists (a, b). auto. }
  assert (Hhit2 : forall a b, In (a, b) P2 -> In (nth b (uninits c s) 0, nth a rest 0, entry M2 a b) H2).
  { intros a b Hab. rewrite EH2. apply in_map_iff. exists (a, b). auto. }
  assert (Hu : forall i r dist, In (i, r, dist) (H1 ++ H2) -> exists om,
     upto_min (obj_update_ct ct (tracker_step (s_store s i))) om /\
     hit_obj_rel (ct_heap ct dets s) p r dist om (s_store s' i)) by apply S.
  (* phase 3 *)
  set (un1 := others (map snd P1) 0 (inits c s)) in *.
  assert (NU1 : NoDup (map h_obj H1 ++ un1)) by (eapply Permutation_NoDup; eauto).
  assert (NDun1 : NoDup un1) by (eapply NoDup_app_r; eauto).
  assert (IU1 : incl un1 (inits c s)).
  { intros x Hx. eapply Permutation_in; [symmetry; exact A3|]. apply in_app_iff; auto. }
  assert (IO1 : incl (map h_obj H1) (inits c s)).
  { intros x Hx. eapply Permutation_in; [symmetry; exact A3|]. apply in_app_iff; auto. }
  assert (IO2 : incl (map h_obj H2) (uninits c s)).
  { intros x Hx. eapply Permutation_in; [symmetry; exact B3|]. apply in_app_iff; auto. }
  assert (Nob : NoDup (un1 ++ dead c s)).
  { apply NoDup_app_intro; auto. intros x Hx Hd. eapply alive_not_dead; [|exact Hd]. apply inits_alive. auto. }
  assert (Dis3 : forall i, In i (un1 ++ dead c s) -> ~ In i (map h_obj H2)).
  { intros i Hi Hj. apply IO2 in Hj. apply in_app_iff in Hi as [Hi|Hi].
    - eapply inits_not_uninits; [apply IU1; exact Hi|exact Hj].
    - eapply alive_not_dead; [apply uninits_alive; exact Hj|exact Hi]. }
  assert (Htr2 : s_tracked s2 = kept c s) by (rewrite B5, A5; apply ST).
  destruct (phase_merges_facts _ _ _ _ _ _ _ Nob B1 Dis3 ltac:(rewrite Htr2; auto) PM)
    as (C1 & C2 & C3 & C4 & C5 & C6 & C7 & C8 & C9 & C10 & C11 & C12 & C13 & C14).
  pose proof (cf_old _ _ _ _ _ _ CF) as D3.
  assert (Hic3 : s_icount s3 = s_icount s) by (rewrite C8, B6, A6; apply ST). rewrite Hic3 in D3.
  assert (Hold : forall i, valid s i -> s_store s' i = s_store s3 i) by (intros i [_ Hi]; apply D3; auto).
  assert (Hmin2 : forall i, In i (kept c s) -> ~ In i (un1 ++ dead c s) -> s_store s' i = s_store s2 i).
  { intros i Hi Hn. rewrite Hold by auto. apply C13. auto. }
  exists (inits c s), (uninits c s), M1, M2, P1, P2. rewrite <- Es0. split; [|split].
  - constructor.
    + intros i. unfold inits. rewrite filter_In, negb_true_iff, matchable_alive. reflexivity.
    + intros i. unfold uninits. rewrite filter_In, matchable_alive. reflexivity.
    + intros Hd. apply (ph_matrix _ _ _ _ _ _ _ _ _ Ph1). destruct dets; [contradiction|discriminate].
    + apply Ph1.
    + exact (conj F1 (conj F2 (conj F3 F4))).
    + intros a b Hab. destruct (Hu _ _ _ ltac:(apply in_app_iff; left; apply Hhit1; exact Hab)) as (om & _ & X). exact (hit_last _ _ _ _ _ _ X).
    + fold rest. intros Hd. exists s1. split; [|split].
      * intros i Hi. apply A9. intros X. eapply inits_not_uninits; eauto.
      * exact A4.
      * apply (ph_matrix _ _ _ _ _ _ _ _ _ Ph2). destruct rest; [contradiction|discriminate].
    + apply Ph2.
    + fold rest. exact (conj K1 (conj K2 (conj K3 K4))).
    + fold rest. intros a b Hab. destruct (Hu _ _ _ ltac:(apply in_app_iff; right; apply Hhit2; exact Hab)) as (om & _ & X). exact (hit_last _ _ _ _ _ _ X).
    + fold rest. rewrite (su_icount _ _ _ _ _ _ _ _ _ _ S). rewrite !others_eq. lia.
  - constructor.
    + apply sorted_filter, sorted_filter, sorted_filter, (ti_sorted _ T).
    + apply sorted_filter, sorted_filter, sorted_filter, (ti_sorted _ T).
    + pose proof (phase_greedy _ _ _ _ _ _ _ _ _ Hr Ph1) as X. rewrite map_length in X. exact X.
    + fold rest. pose proof (phase_greedy _ _ _ _ _ _ _ _ _ Hr Ph2) as X. rewrite map_length in X. exact X.
    + intros a b Hab. destruct (Hu _ _ _ ltac:(apply in_app_iff; left; apply Hhit1; exact Hab)) as (om & _ & X). exact (hit_last_distance _ _ _ _ _ _ X).
    + intros a b Hab. destruct (Hu _ _ _ ltac:(apply in_app_iff; right; apply Hhit2; exact Hab)) as (om & _ & X). exact (hit_last_distance _ _ _ _ _ _ X).
    + rewrite <- O1, <- O2. intros i Hi N1 N2. unfold last_distance.
      destruct (in_dec Nat.eq_dec i (kept c s)) as [K|K].
      2:{ left. rewrite (su_gone _ _ _ _ _ _ _ _ _ _ S); auto. apply (valid_tracked _ _ T Hi). }
      destruct (in_dec Nat.eq_dec i (map h_obj G)) as [Hg|Hg].
      * right. apply in_hits in Hg as (j & dd & Hg). exists j.
        destruct (su_merge _ _ _ _ _ _ _ _ _ _ S _ _ _ Hg) as (om & _ & MR).
        assert (Hj : In j (map h_det G)) by (apply in_map_iff; exists (i, j, dd); auto).
        assert (Hjk : In j (kept c s)) by (apply alive_kept, uninits_alive, IO2, C4; auto).
        split; [apply kept_tracked in Hjk; exact Hjk|]. split; [|apply MR].
        intros X. apply (tracked_old _ _ _ _ _ _ _ _ _ _ j T S) in X; [tauto|auto].
      * left. pose proof (su_missed _ _ _ _ _ _ _ _ _ _ S i K) as X.
        rewrite (upto_min_last_distance _ _ (X ltac:(rewrite !in_app_iff; tauto))). apply step_last_distance.
    + intros b Hb Hd Hcase. pose proof Hb as Hb0. set (i := nth b (inits c s) 0) in *.
      assert (Hi : In i (inits c s)) by (apply nth_In; auto).
      assert (Hk : In i (kept c s)) by (apply alive_kept, inits_alive; auto).
      assert (Hne : map (@CDet) dets <> []) by (destruct dets; [contradiction|discriminate]).
      pose proof (phase_min_law _ _ _ _ _ _ _ _ _ b Ni Hne Hb0 Ph1) as X. fold i in X. rewrite map_length in X.
      rewrite (sp_step _ _ _ _ _ ST) in X by auto. rewrite step_min_distance in X.
      unfold current_min_distance.
      assert (Em : o_min_distance (s_store s' i) = o_min_distance (s_store sa1 i)); [|rewrite Em; exact X].
      assert (E2 : s_store s2 i = s_store s1 i) by (apply B9; intros Y; eapply inits_not_uninits; eauto).
      assert (E1 : o_min_distance (s_store s1 i) = o_min_distance (s_store sa1 i)).
      { destruct (in_dec Nat.eq_dec i (map h_obj H1)) as [Hh1|Hh1].
        - apply in_hits in Hh1 as (r & dd & Hh1). apply (hit_min_distance _ _ _ _ _ _ (hf_hit _ _ _ _ HF1 _ _ _ Hh1)).
        - rewrite (hf_other _ _ _ _ HF1) by auto. reflexivity. }
      rewrite <- E1, <- E2. f_equal. destruct Hcase as [Hc|Hc].
      * rewrite Hold by auto. destruct PM as [(_ & _ & ->)|(f & M & pairs & sa & E' & _)]; [reflexivity|congruence].
      * apply Hmin2; auto. intros Y. apply in_app_iff in Y as [Y|Y].
        -- eapply NoDup_app_disj; [exact NU1| |exact Y]. rewrite O1. apply in_map_iff in Hc as ((x & y) & Exy & Hxy).
           cbn in Exy. subst y. apply in_map_iff. exists (x, b). auto.
        -- eapply alive_not_dead; [apply inits_alive; exact Hi|exact Y].
    + fold rest. cbv zeta. intros b Hb Hd. pose proof Hb as Hb0. set (i := nth b (uninits c s) 0) in *.
      assert (Hi : In i (uninits c s)) by (apply nth_In; auto).
      assert (Hk : In i (kept c s)) by (apply alive_kept, uninits_alive; auto).
      assert (Hne : map (@CDet) rest <> []) by (destruct rest; [contradiction|discriminate]).
      pose proof (phase_min_law _ _ _ _ _ _ _ _ _ b Nu Hne Hb0 Ph2) as X. fold i in X. rewrite map_length in X.
      rewrite A9 in X by (intros Y; eapply inits_not_uninits; eauto).
      rewrite (sp_step _ _ _ _ _ ST) in X by auto. rewrite step_min_distance in X.
      unfold current_min_distance.
      assert (Em : o_min_distance (s_store s' i) = o_min_distance (s_store sa2 i)); [|rewrite Em; exact X].
      rewrite Hmin2; auto.
      * destruct (in_dec Nat.eq_dec i (map h_obj H2)) as [Hh1|Hh1].
        -- apply in_hits in Hh1 as (r & dd & Hh1). apply (hit_min_distance _ _ _ _ _ _ (hf_hit _ _ _ _ HF2 _ _ _ Hh1)).
        -- rewrite (hf_other _ _ _ _ HF2) by auto. reflexivity.
      * intros Y. apply in_app_iff in Y as [Y|Y].
        -- eapply inits_not_uninits; [apply IU1; exact Y|exact Hi].
        -- eapply alive_not_dead; [apply uninits_alive; exact Hi|exact Y].
    + intros Hc i Hi N1 N2. unfold current_min_distance. fold rest in N2.
      destruct (in_dec Nat.eq_dec i (kept c s)) as [K|K].
      2:{ rewrite (su_gone _ _ _ _ _ _ _ _ _ _ S); auto. apply (valid_tracked _ _ T Hi). }
      rewrite Hold by auto. destruct PM as [(_ & _ & ->)|(f & M & pairs & sa & E' & _)]; [|congruence].
      assert (X2 : s_store s2 i = s_store s1 i).
      { destruct (in_dec Nat.eq_dec i (uninits c s)) as [U|U]; [|apply B9; auto].
        destruct (ph_empty _ _ _ _ _ _ _ _ _ Ph2) as [Ep Es]; [rewrite (N2 U); reflexivity|].
        rewrite EH2, Ep in Hh2. inversion Hh2; subst; reflexivity. }
      assert (X1 : s_store s1 i = s_store s0 i).
      { destruct (in_dec Nat.eq_dec i (inits c s)) as [U|U]; [|apply A9; auto].
        destruct (ph_empty _ _ _ _ _ _ _ _ _ Ph1) as [Ep Es]; [rewrite (N1 U); reflexivity|].
        rewrite EH1, Ep in Hh. inversion Hh; subst; reflexivity. }
      rewrite X2, X1, (sp_step _ _ _ _ _ ST) by auto. apply step_min_distance.
  - assert (Hmerge : forall i j dd, In (i, j, dd) G -> tracked s' i /\ ~ tracked s' j /\ last_det s' i = last_det s' j /\
        last_distance s' i = last_distance s' j /\ current_min_distance s' i = current_min_distance s' j /\
        o_filter (s_store s' i) = o_filter (s_store s' j)).
    { intros i j dd Hg. destruct (su_merge _ _ _ _ _ _ _ _ _ _ S _ _ _ Hg) as (om & _ & MR).
      assert (Hi : In i (map h_obj G)) by (apply in_map_iff; exists (i, j, dd); auto).
      assert (Hj : In j (map h_det G)) by (apply in_map_iff; exists (i, j, dd); auto).
      assert (Hjk : In j (kept c s)) by (apply alive_kept, uninits_alive, IO2, C4; auto).
      assert (Hik : In i (kept c s)).
      { apply C3 in Hi. apply in_app_iff in Hi as [X|X]; [apply alive_kept, inits_alive, IU1; auto|apply dead_kept; auto]. }
      split; [|split].
      - apply (tracked_old _ _ _ _ _ _ _ _ _ _ i T S); auto. split; auto. intros X.
        apply (Dis3 i); [apply C3; auto|apply C4; auto].
      - intros X. apply (tracked_old _ _ _ _ _ _ _ _ _ _ j T S) in X; [tauto|auto].
      - destruct MR. unfold last_det, last_distance, current_min_distance. auto. }
    assert (Hkeep : forall j, In j (map h_obj H2) -> ~ In j (map h_det G) -> tracked s' j).
    { intros j Hj Hn. apply IO2, uninits_alive, alive_kept in Hj.
      apply (tracked_old _ _ _ _ _ _ _ _ _ _ j T S); auto. }
    assert (Hs3 : forall j, In j (map h_obj H2) -> s_store s' j = s_store s2 j).
    { intros j Hj. rewrite Hold by (apply Hval, alive_kept, uninits_alive, IO2; auto). apply C13.
      intros X. apply (Dis3 j X Hj). }
    assert (Hl2 : forall i, In i (un1 ++ dead c s) -> exists m, s_store s2 i = set_min_distance m (s_store s0 i)).
    { intros i Hi. rewrite B9; [|intros X; apply in_app_iff in Hi as [Hi|Hi];
        [eapply inits_not_uninits; [apply IU1; exact Hi|exact X]|eapply alive_not_dead; [apply uninits_alive; exact X|exact Hi]]].
      apply A8. intros X. apply in_app_iff in Hi as [Hi|Hi]; [exact (NoDup_app_disj _ _ i NU1 X Hi)|].
      eapply alive_not_dead; [apply inits_alive, IO1; exact X|exact Hi]. }
    assert (Hheap : heap_age (s_heap s0) (s_heap s2)) by (eapply heap_age_trans; eauto).
    destruct PM as [(Hoff & EG & _)|(f & M3 & P3 & sa3 & Hf & Ph3 & EG & Hm)].
    + exists (dead c s), (un1 ++ dead c s), (map h_obj H2), [], []. constructor.
      * apply retired_dead. * apply sorted_filter, sorted_filter, (ti_sorted _ T).
      * reflexivity. * exact O2. * auto. * intros f Hf. congruence. * reflexivity. * intros X. contradiction.
      * intros ? ? [].
      * intros j Hj _. apply Hkeep; auto. rewrite EG. intros [].
    + exists (dead c s), (un1 ++ dead c s), (map h_obj H2), M3, P3. constructor.
      * apply retired_dead. * apply sorted_filter, sorted_filter, (ti_sorted _ T).
      * reflexivity. * exact O2. * congruence.
      * intros f0 Hf0 Hne. rewrite Hf in Hf0. injection Hf0 as <-. exists s2. split; [|split; [|split]].
        -- intros j Hj. symmetry. auto.
        -- exact Hl2.
        -- exact Hheap.
        -- apply (ph_matrix _ _ _ _ _ _ _ _ _ Ph3). intros X. apply map_eq_nil_inv in X. auto.
      * apply Ph3.
      * intros _. pose proof (phase_greedy _ _ _ _ _ _ _ _ _ Hr Ph3) as X. rewrite map_length in X. exact X.
      * intros a b Hab. cbv zeta. eapply (Hmerge _ _ (entry M3 a b)). rewrite EG. apply in_map_iff. exists (a, b). auto.
      * intros j Hj Hn. apply Hkeep; auto. rewrite EG, mk_hit_det, map_map. exact Hn.
Qed.
Theorem call_phases c dets p ct (s s' : st) out : rnd_ok (tc_rnd c) -> tracker_state c s ->
  update c (Some dets) p ct s = (s', Ret out) ->
  exists ini uni M1 M2 P1 P2,
    two_phases c dets s (snd (begin_update c dets ct s)) s' ini uni M1 M2 P1 P2 /\
    distances_recorded c dets s s' ini uni M1 M2 P1 P2 /\
    exists old lost fresh M3 P3,
      reidentification c s (snd (begin_update c dets ct s)) s' ini uni P1 P2 old lost fresh M3 P3.
Proof. intros Hr Ht. apply tracker_state_good in Ht. apply call_phases_good; auto. Qed.
Theorem call_distances c dets p ct (s s' : st) out : rnd_ok (tc_rnd c) -> tracker_state c s ->
  update c (Some dets) p ct s = (s', Ret out) ->
  exists ini uni M1 M2 P1 P2,
    two_phases c dets s (snd (begin_update c dets ct s)) s' ini uni M1 M2 P1 P2 /\
    distances_recorded c dets s s' ini uni M1 M2 P1 P2.
Proof.
  intros Hr Ht E. destruct (call_phases c dets p ct s s' out Hr Ht E) as (ini & uni & M1 & M2 & P1 & P2 & A & B & _).
  exists ini, uni, M1, M2, P1, P2. auto.
Qed.
Theorem call_reidentification c dets p ct (s s' : st) out : rnd_ok (tc_rnd c) -> tracker_state c s ->
  update c (Some dets) p ct s = (s', Ret out) ->
  exists ini uni M1 M2 P1 P2 old lost fresh M3 P3,
    two_phases c dets s (snd (begin_update c dets ct s)) s' ini uni M1 M2 P1 P2 /\
    reidentification c s (snd (begin_update c dets ct s)) s' ini uni P1 P2 old lost fresh M3 P3.
Proof.
  intros Hr Ht E. destruct (call_phases c dets p ct s s' out Hr Ht E) as (ini & uni & M1 & M2 & P1 & P2 & A & _ & old & lost & fresh & M3 & P3 & B).
  exists ini, uni, M1, M2, P1, P2, old, lost, fresh, M3, P3. auto.
Qed.
End Phases.

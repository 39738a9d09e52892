(** The exact law of past_detections, and the state of new objects. *)
From Coq Require Import ZArith Bool Arith String List Lia Permutation Sorting.Sorted.
From Verif Require Import Model.Num Model.Base Model.Matching Model.Filter Model.Tracker
  Spec.MatchingSpec Spec.IdentitySpec Proofs.NumLaws Proofs.MatchingProofs Proofs.TrackerFrame Proofs.Identity
  Proofs.Effect Proofs.CallEffect Proofs.CallProps Proofs.CallTheorems Proofs.PointProofs Proofs.PastProofs
  Spec.CallSpec Spec.PointSpec Spec.PhasesSpec.
Import ListNotations.

Section PastLaw.
Context {N : Num} {FO : filter_ops N} (laws : NumLaws N).
Notation st := (st FO).
Notation tobj := (tobj FO).
Notation det := (detection N).

Lemma past_step_updated h (o : tobj) r past' h' : past_step h o r past' h' ->
  past_updated (oc_past_len (o_conf o)) (o_age o) (fun q => d_age (h q)) (o_past o) r past' /\
  (~ In r (o_past o) -> (In r past' -> d_age (h' r) = Some (o_age o)) /\ (~ In r past' -> d_age (h' r) = d_age (h r))).
Proof.
  intros [A|A B|first rest a A B C D F|first rest a A B C D F].
  - split; [constructor; intros; auto; lia|]. split; intros; [contradiction|auto].
  - split; [constructor; intros; auto; lia|]. split; intros X; [rewrite upd_same; reflexivity|].
    exfalso. apply X. apply in_app_iff. right; left; auto.
  - split.
    + constructor; intros; try lia. exists first, rest, a. repeat split; auto. lia.
    + split; intros X; [rewrite upd_same; reflexivity|]. exfalso. apply X. apply in_app_iff. right; left; auto.
  - split.
    + constructor; intros; try lia. exists first, rest, a. repeat split; auto. lia.
    + split; intros; [contradiction|auto].
Qed.

Lemma past_updated_ext len now age age' old r new : (forall q, In q old -> age q = age' q) ->
  past_updated len now age old r new -> past_updated len now age' old r new.
Proof.
  intros H [A B C]. constructor; auto. intros X Y. destruct (C X Y) as (first & rest & a & E & F & G).
  exists first, rest, a. repeat split; auto; try apply G. rewrite <- H; auto. rewrite E. left; auto.
Qed.

Lemma hits_ages p l (s s' : st) : hits p l s s' -> ages_but (map h_det l) (s_heap s) (s_heap s').
Proof.
  induction 1 as [s|i r dist l s s1 s' u Hh Hl IH]; intros q Hq; auto. cbn in Hq.
  rewrite IH by tauto. cbn. apply hit_ret in Hh as (past' & h' & Hp & Hh1 & _). rewrite Hh1.
  destruct Hp; auto; rewrite upd_other; auto.
Qed.

Lemma hits_law p l (s s' : st) : hits p l s s' -> NoDup (map h_obj l) -> NoDup (map h_det l) ->
  forall i r dist, In (i, r, dist) l -> (forall q, In q (o_past (s_store s i)) -> ~ In q (map h_det l)) ->
  past_updated (oc_past_len (o_conf (s_store s i))) (o_age (s_store s i)) (fun q => d_age (s_heap s q))
    (o_past (s_store s i)) r (o_past (s_store s' i)) /\
  (In r (o_past (s_store s' i)) -> d_age (s_heap s' r) = Some (o_age (s_store s i))) /\
  (~ In r (o_past (s_store s' i)) -> d_age (s_heap s' r) = d_age (s_heap s r)).
Proof.
  induction 1 as [s|i0 r0 d0 l s s1 s' u Hh Hl IH]; intros Hno Hnd i r dist Hin Hp; [destruct Hin|].
  cbn in Hno, Hnd. apply NoDup_cons_iff in Hno as [No1 No2]. apply NoDup_cons_iff in Hnd as [Nd1 Nd2].
  change (h_obj (i0, r0, d0)) with i0 in *. change (h_det (i0, r0, d0)) with r0 in *.
  pose proof (hits_effect _ _ _ _ Hl No2) as HF. pose proof (hits_ages _ _ _ _ Hl) as HA.
  apply hit_ret in Hh as (past' & h' & Hps & Hh1 & Hr & Hpast & [F1 F2 F3 F4] & _).
  destruct Hin as [E|Hin].
  - injection E as <- <- <-. rewrite (hf_other _ _ _ _ HF) by auto. cbn. rewrite upd_same. cbn.
    rewrite Hpast. destruct (past_step_updated _ _ _ _ _ Hps) as [A B]. split; [exact A|].
    specialize (B ltac:(intros X; apply (Hp _ X); left; reflexivity)).
    rewrite (HA r0 Nd1). cbn. rewrite Hh1. exact B.
  - assert (Hne : i <> i0). { intros ->. apply No1. apply in_map_iff. exists (i0, r, dist). auto. }
    assert (Hrd : In r (map h_det l)) by (apply in_map_iff; exists (i, r, dist); auto).
    assert (Es : s_store (mod_obj i0 (set_last_distance (Some d0)) s1) i = s_store s i).
    { cbn. rewrite upd_other by auto. apply F2. auto. }
    assert (Ha : forall q, q <> r0 -> d_age (s_heap s1 q) = d_age (s_heap s q)).
    { intros q Hq. rewrite Hh1. destruct Hps; auto; rewrite upd_other; auto. }
    specialize (IH No2 Nd2 i r dist Hin). rewrite Es in IH. cbn [s_heap mod_obj] in IH.
    destruct IH as (A & B & C). { intros q Hq X. apply (Hp q Hq). right; auto. }
    split; [|split; [exact B|]].
    + eapply past_updated_ext; [|exact A]. intros q Hq. cbn. apply Ha. intros ->. apply (Hp r0 Hq). left; auto.
    + intros X. rewrite (C X). cbn. apply Ha. intros ->. contradiction.
Qed.

Lemma creates_ages c rs p ct : forall (s s' : st) u, create_objects c (map CDet rs) p ct s = (s', Ret u) ->
  ages_but rs (s_heap s) (s_heap s') /\ forall r, In r rs -> d_age (s_heap s' r) = Some 0%Z.
Proof.
  induction rs as [|r0 rs IH]; intros s s' u E; cbn in E.
  - injection E as <- _. split; [intros ? _; reflexivity|intros ? []].
  - apply IH in E as [A B].
    assert (Hh : d_age (s_heap (create_object c r0 p ct s) r0) = Some 0%Z /\ ages_but [r0] (s_heap s) (s_heap (create_object c r0 p ct s))).
    { unfold create_object. cbv zeta. destruct (p <=? tc_delay c)%Z; cbn; (split; [rewrite upd_same; reflexivity|]);
      intros q Hq; rewrite upd_other; auto; intros ->; apply Hq; left; auto. }
    destruct Hh as [H1 H2]. split.
    + intros q Hq. rewrite A by (intros X; apply Hq; right; auto). apply H2. intros [X|[]]. apply Hq. left; auto.
    + intros r Hr. destruct (in_dec Nat.eq_dec r rs) as [X|X]; auto. destruct Hr as [<-|Hr]; [|contradiction].
      rewrite A by auto. exact H1.
Qed.

Lemma stepped_ages c dets ct (s s0 : st) : stepped c dets ct s s0 -> forall r, d_age (s_heap s0 r) = d_age (s_heap s r).
Proof. intros Hst r. rewrite (sp_heap _ _ _ _ _ Hst). unfold ct_heap. destruct ct; auto. apply update_dets_ct_ages. Qed.

(** C53. *)
Theorem past_law c dets p ct (s s' : st) out : rnd_ok (tc_rnd c) -> tracker_state c s -> tc_reid_distance c = None ->
  update c (Some dets) p ct s = (s', Ret out) -> NoDup dets ->
  (forall r, ~ In r dets -> det_age s' r = det_age s r) /\
  (forall i, tracked s i -> ~ In (last_det s i) dets -> ~ In (last_det s' i) dets -> past s' i = past s i) /\
  (forall i, tracked s i -> ~ In (last_det s i) dets -> (forall q, In q (past s i) -> ~ In q dets) -> In (last_det s' i) dets ->
     let r := last_det s' i in let now := (o_age (s_store s i) + 1)%Z in
     o_age (s_store s' i) = now /\
     past_updated (oc_past_len (o_conf (s_store s i))) now (det_age s) (past s i) r (past s' i) /\
     (In r (past s' i) -> det_age s' r = Some now) /\ (~ In r (past s' i) -> det_age s' r = det_age s r)).
Proof.
  intros Hr Ht Nr E Hnd. apply tracker_state_good in Ht as [T C].
  destruct (update_effect laws _ _ _ _ _ _ _ Hr (ti_nodup _ T) E)
    as (s0 & s1 & s2 & s3 & H1 & H2 & G & rest1 & news & un1 & He & Ho & Es0). cbn [dets_of] in *.
  pose proof (effect_summary _ _ _ _ _ _ _ _ _ _ _ _ _ _ _ _ T He) as S.
  destruct He as [ST PH1 (un2 & PH2) PM CF [u Er]].
  destruct PM as [(_ & EG & E3)|(f & M & pairs & sa & E' & _)]; [|congruence]. subst s3 G.
  assert (Nk : NoDup (kept c s)) by (apply NoDup_filter, (ti_nodup _ T)).
  assert (Na : NoDup (alive c s)) by (apply NoDup_filter; auto).
  assert (Ni : NoDup (inits c s)) by (apply NoDup_filter; auto).
  assert (Nu : NoDup (uninits c s)) by (apply NoDup_filter; auto).
  destruct (phase_hits_facts _ _ _ _ _ _ _ _ _ Ni PH1) as (A1 & A2 & A3 & A4 & A5 & A6 & A7 & A8 & A9 & A10).
  destruct (phase_hits_facts _ _ _ _ _ _ _ _ _ Nu PH2) as (B1 & B2 & B3 & B4 & B5 & B6 & B7 & B8 & B9 & B10).
  destruct PH1 as [(M1 & P1 & sa1 & Ph1 & EH1 & Hh & _)]. destruct PH2 as [(M2 & P2 & sa2 & Ph2 & EH2 & Hh2 & _)].
  pose proof (ph_min _ _ _ _ _ _ _ _ _ Ph1) as Mf1. pose proof (ph_min _ _ _ _ _ _ _ _ _ Ph2) as Mf2.
  pose proof (su_perm _ _ _ _ _ _ _ _ _ _ S) as HP.
  assert (Nall : NoDup (map h_det H1 ++ map h_det H2 ++ news)) by (eapply Permutation_NoDup; eauto).
  assert (N1 : NoDup (map h_det H1)).
  { eapply NoDup_app_r. eapply Permutation_NoDup; [apply Permutation_app_comm|exact Nall]. }
  assert (N2 : NoDup (map h_det H2)).
  { apply NoDup_app_r in Nall. eapply NoDup_app_r. eapply Permutation_NoDup; [apply Permutation_app_comm|exact Nall]. }
  destruct (creates_ages _ _ _ _ _ _ _ Er) as [HC HCn].
  pose proof (hits_ages _ _ _ _ Hh) as HA1. pose proof (hits_ages _ _ _ _ Hh2) as HA2.
  pose proof (stepped_ages _ _ _ _ _ ST) as HS.
  assert (Ind : forall r, In r dets <-> In r (map h_det H1) \/ In r (map h_det H2) \/ In r news).
  { intros r. rewrite <- !in_app_iff. split; apply Permutation_in; auto. symmetry; auto. }
  assert (E01 : forall r, d_age (s_heap sa1 r) = d_age (s_heap s r)) by (intros r; rewrite (mf_heap _ _ _ Mf1); auto).
  assert (E12 : forall r, d_age (s_heap sa2 r) = d_age (s_heap s1 r)) by (intros r; rewrite (mf_heap _ _ _ Mf2); auto).
  assert (Hic2 : s_icount s2 = s_icount s) by (rewrite B6, A6; apply ST).
  pose proof (cf_old _ _ _ _ _ _ CF) as D3. rewrite Hic2 in D3.
  assert (Hval : forall i, tracked s i -> i <= s_icount s) by (intros i Hi; apply (valid_tracked _ _ T) in Hi; unfold valid in Hi; lia).
  assert (Hmiss : forall i, tracked s i -> ~ In i (map h_obj H1 ++ map h_obj H2) ->
     last_det s' i = last_det s i /\ past s' i = past s i).
  { intros i Hi Hn. destruct (in_dec Nat.eq_dec i (kept c s)) as [K|K].
    - pose proof (su_missed _ _ _ _ _ _ _ _ _ _ S i K) as X. cbn in X. rewrite app_nil_r in X. specialize (X Hn).
      unfold last_det, past. rewrite (um_last _ _ X), st_last, (um_past _ _ X), st_past. auto.
    - unfold last_det, past. rewrite (su_gone _ _ _ _ _ _ _ _ _ _ S); auto. apply (valid_tracked _ _ T Hi). }
  assert (Hhit : forall i, In i (map h_obj H1 ++ map h_obj H2) -> In (last_det s' i) dets).
  { intros i Hi. rewrite <- map_app in Hi. apply in_hits in Hi as (r & dd & Hi).
    destruct (su_hit _ _ _ _ _ _ _ _ _ _ S _ _ _ Hi) as (om & _ & (o1 & F1 & F2)). unfold last_det. rewrite F2. cbn.
    rewrite (hr_last _ _ _ _ _ F1). apply Ind. apply in_app_iff in Hi as [Hi|Hi]; [left|right; left]; apply in_map_iff; exists (i, r, dd); auto. }
  split; [|split].
  - intros r Hd. rewrite Ind in Hd. unfold det_age. rewrite HC, HA2, E12, HA1, E01 by tauto. reflexivity.
  - intros i Hi _ Hns. apply (Hmiss i Hi). intros X. apply Hns, Hhit; auto.
  - intros i Hi Hfr Hpq Hseen. cbv zeta.
    assert (Hin : In i (map h_obj H1 ++ map h_obj H2)).
    { destruct (in_dec Nat.eq_dec i (map h_obj H1 ++ map h_obj H2)) as [|X]; auto. exfalso.
      apply Hfr. destruct (Hmiss i Hi X) as [<- _]. auto. }
    pose proof Hin as Hin0. rewrite <- map_app in Hin. apply in_hits in Hin as (r & dd & Hin).
    destruct (su_hit _ _ _ _ _ _ _ _ _ _ S _ _ _ Hin) as (om & U & (o1 & F1 & F2)).
    assert (El : last_det s' i = r) by (unfold last_det; rewrite F2; cbn; apply (hr_last _ _ _ _ _ F1)).
    rewrite El.
    assert (Eage : o_age (s_store s' i) = (o_age (s_store s i) + 1)%Z).
    { rewrite F2. cbn. rewrite (hr_age _ _ _ _ _ F1), (um_age _ _ U), st_age. reflexivity. }
    split; [exact Eage|].
    assert (Es' : s_store s' i = s_store s2 i) by (apply D3; auto).
    unfold past, det_age.
    assert (Ks : In i (kept c s)).
    { apply in_app_iff in Hin0 as [X|X]; [apply (su_obj1 _ _ _ _ _ _ _ _ _ _ S) in X; apply alive_kept, inits_alive; auto|
        apply (su_obj2 _ _ _ _ _ _ _ _ _ _ S) in X; apply alive_kept, uninits_alive; auto]. }
    pose proof (sp_step _ _ _ _ _ ST i Ks) as Est.
    assert (Enew : ~ In r news).
    { intros X. apply in_app_iff in Hin as [Y|Y].
      - eapply NoDup_app_disj; [exact Nall| |apply in_app_iff; right; exact X]. apply in_map_iff. exists (i, r, dd). auto.
      - apply NoDup_app_r in Nall. eapply NoDup_app_disj; [exact Nall| |exact X]. apply in_map_iff. exists (i, r, dd). auto. }
    rewrite (HC r Enew), Es'.
    apply in_app_iff in Hin as [Hx|Hx].
    + assert (Hir : In r (map h_det H1)) by (apply in_map_iff; exists (i, r, dd); auto).
      assert (Es2 : s_store s2 i = s_store s1 i).
      { apply B9. intros X. eapply inits_not_uninits; [|exact X]. apply (su_obj1 _ _ _ _ _ _ _ _ _ _ S). apply in_map_iff. exists (i, r, dd). auto. }
      destruct (mf_store _ _ _ Mf1 i) as [m Em].
      destruct (hits_law _ _ _ _ Hh A1 N1 i r dd Hx) as (X & Y & Z).
      { rewrite Em. cbn. rewrite Est, st_past. intros q Hq Y. apply (Hpq q Hq). apply Ind. auto. }
      rewrite Em in X, Y. cbn in X, Y. rewrite Est, ?st_past, ?st_age, ?st_conf in X. rewrite Est, st_age in Y. rewrite Es2.
      assert (Hr2 : d_age (s_heap s2 r) = d_age (s_heap s1 r)).
      { rewrite HA2, E12; auto. intros W. eapply NoDup_app_disj; [exact Nall|exact Hir|apply in_app_iff; left; exact W]. }
      rewrite Hr2. split; [|split; [exact Y|rewrite <- (E01 r); exact Z]].
      eapply past_updated_ext; [|exact X]. intros q Hq. apply E01.
    + assert (Hir : In r (map h_det H2)) by (apply in_map_iff; exists (i, r, dd); auto).
      assert (Es1 : s_store s1 i = s_store s0 i).
      { apply A9. intros X. eapply inits_not_uninits; [exact X|]. apply (su_obj2 _ _ _ _ _ _ _ _ _ _ S). apply in_map_iff. exists (i, r, dd). auto. }
      destruct (mf_store _ _ _ Mf2 i) as [m Em].
      destruct (hits_law _ _ _ _ Hh2 B1 N2 i r dd Hx) as (X & Y & Z).
      { rewrite Em. cbn. rewrite Es1, Est, st_past. intros q Hq Y. apply (Hpq q Hq). apply Ind. auto. }
      rewrite Em in X, Y. cbn in X, Y. rewrite Es1, Est, ?st_past, ?st_age, ?st_conf in X. rewrite Es1, Est, st_age in Y.
      assert (Hr1 : forall q, ~ In q (map h_det H1) -> d_age (s_heap sa2 q) = d_age (s_heap s q)).
      { intros q Hq. rewrite E12, HA1, E01; auto. }
      split; [|split; [exact Y|]].
      * eapply past_updated_ext; [|exact X]. intros q Hq. apply Hr1. intros W. apply (Hpq q Hq). apply Ind. auto.
      * rewrite <- Hr1; [exact Z|]. intros W. eapply NoDup_app_disj; [exact Nall|exact W|apply in_app_iff; left; exact Hir].
Qed.

Theorem past_law_conf c dets p ct (s s' : st) out : rnd_ok (tc_rnd c) -> tracker_state c s -> tc_reid_distance c = None ->
  update c (Some dets) p ct s = (s', Ret out) -> NoDup dets ->
  (forall r, ~ In r dets -> det_age s' r = det_age s r) /\
  (forall i, tracked s i -> ~ In (last_det s i) dets -> ~ In (last_det s' i) dets -> past s' i = past s i) /\
  (forall i, tracked s i -> ~ In (last_det s i) dets -> (forall q, In q (past s i) -> ~ In q dets) -> In (last_det s' i) dets ->
     let r := last_det s' i in let now := (o_age (s_store s i) + 1)%Z in
     o_age (s_store s' i) = now /\
     past_updated (tc_past_len c) now (det_age s) (past s i) r (past s' i) /\
     (In r (past s' i) -> det_age s' r = Some now) /\ (~ In r (past s' i) -> det_age s' r = det_age s r)).
Proof.
  intros Hr Ht Nr E Hnd. destruct (past_law c dets p ct s s' out Hr Ht Nr E Hnd) as (A & B & D). split; [exact A|]. split; [exact B|].
  intros i Hi. apply tracker_state_good in Ht as [T C]. rewrite <- (co_past _ _ (C i (valid_tracked _ _ T Hi))). apply D; auto.
Qed.

(* ---- C54 ---- *)
Lemma reshape_zeros d n : 0 < d -> reshape_rows d (repeat (@n0 N) (d * n)) = repeat (repeat n0 d) n.
Proof.
  intros Hd. rewrite <- (reshape_flatten n d (repeat (repeat n0 d) n)); auto.
  - f_equal. induction n as [|n IH]; [rewrite Nat.mul_0_r; reflexivity|]. cbn. unfold flatten in IH |- *.
    rewrite <- IH, <- repeat_app. f_equal. lia.
  - split; [apply repeat_length|]. apply Forall_forall. intros x Hx. apply repeat_spec in Hx as ->. apply repeat_length.
Qed.

Theorem newborn_state c dets p ct (s s' : st) out i : starts_at_rest FO -> rnd_ok (tc_rnd c) -> tracker_state c s ->
  update c (Some dets) p ct s = (s', Ret out) -> known s' i -> ~ known s i ->
  tracked s' i /\ In (last_det s' i) dets /\ newborn c p ct s' i.
Proof.
  intros Hs Hr Ht E K K'. apply tracker_state_good in Ht as [T C].
  destruct (update_effect laws _ _ _ _ _ _ _ Hr (ti_nodup _ T) E)
    as (s0 & s1 & s2 & s3 & H1 & H2 & G & rest1 & news & un1 & He & Ho & Es0). cbn [dets_of] in *.
  pose proof (effect_summary _ _ _ _ _ _ _ _ _ _ _ _ _ _ _ _ T He) as S.
  destruct He as [_ _ _ _ _ [u Er]]. destruct (creates_ages _ _ _ _ _ _ _ Er) as [_ HCn].
  assert (Hi : s_icount s < i <= s_icount s') by (unfold known in *; lia).
  rewrite (su_icount _ _ _ _ _ _ _ _ _ _ S) in Hi.
  pose proof (su_new _ _ _ _ _ _ _ _ _ _ S (i - Datatypes.S (s_icount s)) ltac:(lia)) as NR.
  set (k0 := i - Datatypes.S (s_icount s)) in *.
  replace (Datatypes.S (s_icount s) + k0) with i in NR by lia.
  assert (Hnew : In (nth k0 news 0) news) by (apply nth_In; lia).
  assert (Hdet : In (nth k0 news 0) dets).
  { eapply Permutation_in; [symmetry; apply (su_perm _ _ _ _ _ _ _ _ _ _ S)|]. rewrite !in_app_iff. auto. }
  set (r := nth k0 news 0) in *.
  assert (El : last_det s' i = r) by apply (nr_last _ _ _ _ _ _ _ NR).
  assert (HA : same_age (ct_heap ct dets s r) (s_heap s' r)) by apply (su_heap _ _ _ _ _ _ _ _ _ _ S).
  destruct HA as (a1 & a2 & a3 & a4 & a5).
  set (d := s_heap s' r) in *. set (d0 := ct_heap ct dets s r) in *.
  assert (Eo : forall t n, over_threshold t n d0 = over_threshold t n d) by (intros; apply over_threshold_same; auto).
  pose proof (nr_conf _ _ _ _ _ _ _ NR) as Ec. pose proof (nr_once _ _ _ _ _ _ _ NR) as Eon.
  pose proof (nr_points _ _ _ _ _ _ _ NR) as Ep. pose proof (nr_filter _ _ _ _ _ _ _ NR) as Ef.
  fold d0 in Ec, Eon, Ef. rewrite Eo, ?a5 in Eon. rewrite a5 in Ec, Ef.
  assert (En : num_points s' i = List.length (d_absolute_points d)) by (unfold num_points; rewrite Ec; reflexivity).
  assert (Hov : forall k, k < num_points s' i ->
     nth_error (o_once (s_store s' i)) k = Some true <-> above (tc_det_thr c) d k).
  { intros k Hk. rewrite Eon. unfold over_threshold, above. destruct (d_scores d) as [sc|].
    - rewrite nth_error_map. destruct (nth_error sc k) as [x|]; cbn.
      + split; [intros X; injection X as X; eauto|intros (y & Ey & X); injection Ey as <-; f_equal; auto].
      + split; [discriminate|intros (y & Ey & _); discriminate].
    - rewrite nth_error_repeat by (rewrite <- En; auto). tauto. }
  split; [|split; [rewrite El; auto|]].
  { unfold tracked. rewrite (su_tracked _ _ _ _ _ _ _ _ _ _ S), in_app_iff, in_seq. right. lia. }
  constructor; rewrite ?El; fold d.
  - apply (nr_hit _ _ _ _ _ _ _ NR).
  - apply (nr_age _ _ _ _ _ _ _ NR).
  - rewrite (nr_init _ _ _ _ _ _ _ NR). apply Z.leb_le.
  - rewrite Ec. cbn. auto.
  - apply (nr_last_distance _ _ _ _ _ _ _ NR).
  - apply (nr_min_distance _ _ _ _ _ _ _ NR).
  - apply (nr_reid _ _ _ _ _ _ _ NR).
  - unfold past. rewrite (nr_past _ _ _ _ _ _ _ NR). destruct (tc_past_len c); reflexivity.
  - apply HCn. auto.
  - exact En.
  - intros k Hk Ha. apply (Hov k Hk) in Ha. unfold point_counter. rewrite Ep, nth_error_map, Ha. reflexivity.
  - intros k sc Esc Hk Hn. unfold point_counter. rewrite Ep, Eon. unfold over_threshold, above in *. rewrite Esc in *.
    rewrite !nth_error_map. destruct (nth_error sc k) as [x|] eqn:Ex; [|apply nth_error_None in Ex; lia]. cbn.
    destruct (nltb (tc_det_thr c) x) eqn:El'; [|reflexivity]. exfalso. apply Hn. eauto.
  - exact Hov.
  - intros n dim Hd Hn RC.
    assert (Ed : dim_points s' i = dim).
    { unfold dim_points. rewrite Ec. cbn. destruct RC as [Rn Rf]. destruct (d_absolute_points d) as [|x l]; [cbn in Rn; lia|].
      inversion Rf; auto. }
    assert (Ez : dim_z (s_store s' i) = dim * n).
    { unfold dim_z. fold (dim_points s' i). fold (num_points s' i). rewrite Ed, En, (proj1 RC). reflexivity. }
    pose proof (flatten_length _ _ _ RC) as Lf.
    assert (Ex : f_x FO (o_filter (s_store s' i)) = flatten (d_absolute_points d) ++ repeat n0 (dim * n)).
    { rewrite Ef, Hs, Lf. reflexivity. }
    assert (Ea : absolute_estimate (s_store s' i) = d_absolute_points d).
    { rewrite absolute_estimate_eq. fold (dim_points s' i). rewrite Ed, Ez, Ex, firstn_app, Lf, Nat.sub_diag, firstn_all2 by lia. cbn. rewrite app_nil_r.
      apply (reshape_flatten n dim); auto. }
    split; [exact Ed|]. split; [exact Ea|]. split.
    + unfold estimate, get_estimate. rewrite absolute_estimate_eq in Ea. rewrite Ea. rewrite (nr_ct _ _ _ _ _ _ _ NR). destruct ct; reflexivity.
    + unfold estimate_velocity. fold (dim_points s' i). rewrite Ed, Ez, Ex, skipn_app, Lf, Nat.sub_diag, skipn_all2 by lia. cbn.
      apply reshape_zeros; auto.
Qed.
End PastLaw.

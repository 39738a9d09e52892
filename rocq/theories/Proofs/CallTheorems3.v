(** Phases of a call, labels, ids of returned objects, merges. *)
From Coq Require Import ZArith Bool Arith String List Lia Permutation Sorting.Sorted.
From Verif Require Import Model.Num Model.Base Model.Matching Model.Filter Model.Tracker
  Spec.MatchingSpec Spec.IdentitySpec Spec.CallSpec Proofs.NumLaws Proofs.MatchingProofs Proofs.TrackerFrame Proofs.Identity
  Proofs.Effect Proofs.CallEffect Proofs.CallProps Proofs.CallTheorems Proofs.CallTheorems2.
Import ListNotations.

Section CallTheorems3.
Context {N : Num} {FO : filter_ops N} (laws : NumLaws N).
Notation st := (st FO).
Notation tobj := (tobj FO).
Notation frame := (CallSpec.frame FO).

(* ---- C06 ---- *)
Lemma others_eq used : forall l k, others used k l = not_in_idxs used k l.
Proof.
  induction l as [|a l IH]; intros k; cbn; auto. rewrite !IH.
  destruct (in_dec Nat.eq_dec k used) as [H|H]; destruct (existsb (Nat.eqb k) used) eqn:E; auto; exfalso.
  - enough (existsb (Nat.eqb k) used = true) by congruence. apply existsb_exists. exists k. split; auto. apply Nat.eqb_refl.
  - apply existsb_exists in E as (x & Hx & Ex). apply Nat.eqb_eq in Ex. subst. contradiction.
Qed.

Lemma matchable_alive c (s : st) i : matchable c s i <-> In i (alive c s).
Proof.
  unfold matchable. rewrite alive_iff, kept_iff. destruct (tc_reid_max c) as [r|].
  - split; [intros (A & B & C)|intros ((A & B) & C)]; repeat split; auto. apply C. discriminate.
  - split; [intros (A & B & C)|intros ((A & B) & C)]; repeat split; auto. intros X; contradiction.
Qed.

Lemma hit_last h p r d (o o' : tobj) : hit_obj_rel h p r d o o' -> o_last_det o' = r.
Proof. intros (o1 & F1 & ->). cbn. apply (hr_last _ _ _ _ _ F1). Qed.

Theorem initialized_first c dets p ct (s s' : st) out : rnd_ok (tc_rnd c) -> tracker_state c s ->
  update c (Some dets) p ct s = (s', Ret out) ->
  exists ini uni M1 M2 P1 P2, two_phases c dets s (snd (begin_update c dets ct s)) s' ini uni M1 M2 P1 P2.
Proof.
  intros Hr Ht E. apply tracker_state_good in Ht as [T C].
  destruct (update_effect laws _ _ _ _ _ _ _ Hr (ti_nodup _ T) E)
    as (s0 & s1 & s2 & s3 & H1 & H2 & G & rest1 & news & un1 & He & Ho & Es0). cbn [dets_of] in *.
  pose proof (effect_summary _ _ _ _ _ _ _ _ _ _ _ _ _ _ _ _ T He) as S.
  destruct He as [ST PH1 (un2 & PH2) PM CF].
  assert (Nk : NoDup (kept c s)) by (apply NoDup_filter, (ti_nodup _ T)).
  assert (Na : NoDup (alive c s)) by (apply NoDup_filter; auto).
  assert (Ni : NoDup (inits c s)) by (apply NoDup_filter; auto).
  destruct (phase_hits_facts _ _ _ _ _ _ _ _ _ Ni PH1) as (A1 & A2 & A3 & A4 & A5 & A6 & A7 & A8 & A9 & A10).
  destruct PH1 as [(M1 & P1 & sa1 & [Pm Pr Pn Pf Pmin] & EH1 & Hh & -> & ->)].
  destruct PH2 as [(M2 & P2 & sa2 & [Qm Qr Qn Qf Qmin] & EH2 & Hh2 & -> & _)].
  rewrite <- others_eq in *. rewrite map_length in *.
  set (rest := others (map fst P1) 0 dets) in *.
  exists (inits c s), (uninits c s), M1, M2, P1, P2. rewrite <- Es0.
  destruct Pf as (F1 & F2 & F3 & F4 & F5). destruct Qf as (K1 & K2 & K3 & K4 & K5).
  constructor.
  - intros i. unfold inits. rewrite filter_In, negb_true_iff, matchable_alive. reflexivity.
  - intros i. unfold uninits. rewrite filter_In, matchable_alive. reflexivity.
  - intros Hd. apply Pm. destruct dets; [contradiction|discriminate].
  - exact Pn.
  - exact (conj F1 (conj F2 (conj F3 F4))).
  - intros a b Hab. destruct (F2 _ _ Hab) as [L1 L2].
    assert (Hin : In (nth b (inits c s) 0, nth a dets 0, entry M1 a b) (H1 ++ H2)).
    { apply in_app_iff. left. rewrite EH1. apply in_map_iff. exists (a, b). auto. }
    destruct (su_hit _ _ _ _ _ _ _ _ _ _ S _ _ _ Hin) as (om & _ & X). exact (hit_last _ _ _ _ _ _ X).
  - fold rest. intros Hd. exists s1. split; [|split].
    + intros i Hi. apply A9. intros X. eapply inits_not_uninits; eauto.
    + exact A4.
    + apply Qm. destruct rest; [contradiction|discriminate].
  - exact Qn.
  - fold rest. exact (conj K1 (conj K2 (conj K3 K4))).
  - fold rest. intros a b Hab. destruct (K2 _ _ Hab) as [L1 L2].
    assert (Hin : In (nth b (uninits c s) 0, nth a rest 0, entry M2 a b) (H1 ++ H2)).
    { apply in_app_iff. right. rewrite EH2. apply in_map_iff. exists (a, b). auto. }
    destruct (su_hit _ _ _ _ _ _ _ _ _ _ S _ _ _ Hin) as (om & _ & X). exact (hit_last _ _ _ _ _ _ X).
  - fold rest. rewrite (su_icount _ _ _ _ _ _ _ _ _ _ S). subst rest. rewrite !others_eq. lia.
Qed.

(* ---- C07 ---- *)
Lemma update_evolves c dets p ct (s s' : st) out i : good c s -> update c dets p ct s = (s', Ret out) -> valid s i ->
  evolves (s_store s i) (s_store s' i).
Proof.
  intros [T C] E Hv. pose proof (update_prims c dets p ct s (ti_valid _ T)) as P. rewrite E in P.
  eapply prims_evolves in P; eauto. tauto.
Qed.

Theorem labels_match c f dets p ct (s s' : st) out : rnd_ok (tc_rnd c) -> tracker_state c s ->
  tc_distance c = ScalarDistance f -> update c (Some dets) p ct s = (s', Ret out) ->
  (forall i, known s' i -> last_det s' i <> last_det s i \/ ~ known s i ->
     obj_label s' i = d_label (s_heap s (last_det s' i))) /\
  (forall i, known s i -> obj_label s' i = obj_label s i) /\
  (forall r, d_label (s_heap s' r) = d_label (s_heap s r)).
Proof.
  intros Hr Ht Ed E. apply tracker_state_good in Ht as [T C].
  destruct (update_summary laws _ _ _ _ _ _ _ Hr T E) as (H1 & H2 & G & news & S & _). cbn [dets_of] in S.
  assert (Hc : forall i, known s i -> obj_label s' i = obj_label s i).
  { intros i Hi. unfold obj_label. rewrite (ev_conf _ _ (update_evolves _ _ _ _ _ _ _ i (conj T C) E Hi)). reflexivity. }
  assert (Hh : forall r, d_label (s_heap s' r) = d_label (s_heap s r)).
  { intros r. destruct (su_heap _ _ _ _ _ _ _ _ _ _ S r) as (_ & _ & X & _). rewrite <- X. apply ct_heap_label. }
  assert (Hm : forall i r d, In (i, r, d) (H1 ++ H2) -> last_det s' i = r /\ obj_label s i = d_label (s_heap s r)).
  { intros i r d Hin. destruct (su_hit _ _ _ _ _ _ _ _ _ _ S _ _ _ Hin) as (om & _ & X).
    split; [exact (hit_last _ _ _ _ _ _ X)|]. symmetry. apply (su_label _ _ _ _ _ _ _ _ _ _ S f i r d Ed Hin). }
  split; [|split; [exact Hc|exact Hh]].
  intros i Hi Hch.
  destruct (le_lt_dec i (s_icount s)) as [Hle|Hgt].
  2:{ destruct (new_object laws _ _ _ _ _ _ _ i Hr (conj T C) E) as (_ & r & _ & NR); [unfold known in Hi; lia|].
      unfold obj_label, last_det. rewrite (nr_conf _ _ _ _ _ _ _ NR), (nr_last _ _ _ _ _ _ _ NR). cbn. apply ct_heap_label. }
  assert (Hks : known s i) by (unfold known in *; lia).
  destruct Hch as [Hch|]; [|contradiction].
  destruct (in_dec Nat.eq_dec i (kept c s)) as [K|K].
  2:{ exfalso. apply Hch. unfold last_det. rewrite (su_gone _ _ _ _ _ _ _ _ _ _ S); auto. }
  destruct (in_dec Nat.eq_dec i (map h_obj (H1 ++ H2))) as [Hh1|Hh1].
  - destruct (in_hits _ _ Hh1) as (r & d & Hin). destruct (Hm _ _ _ Hin) as [L1 L2].
    rewrite L1, Hc by auto. exact L2.
  - destruct (in_dec Nat.eq_dec i (map h_obj G)) as [Hg|Hg].
    2:{ exfalso. apply Hch. unfold last_det. rewrite (um_last _ _ (su_missed _ _ _ _ _ _ _ _ _ _ S i K ltac:(rewrite map_app, in_app_iff in Hh1; rewrite !in_app_iff; tauto))), st_last. reflexivity. }
    destruct (in_hits _ _ Hg) as (j & d' & Hin).
    destruct (su_merge _ _ _ _ _ _ _ _ _ _ S _ _ _ Hin) as (om' & U & MR).
    pose proof (su_labelG _ _ _ _ _ _ _ _ _ _ S _ _ _ Hin) as LG.
    assert (Hj2 : In j (map h_obj H2)) by (apply (su_cand _ _ _ _ _ _ _ _ _ _ S); eapply hits_in; eauto).
    destruct (in_hits _ _ Hj2) as (r & d & Hin2). assert (Hin3 : In (j, r, d) (H1 ++ H2)) by (apply in_app_iff; auto).
    destruct (Hm _ _ _ Hin3) as [L1 L2].
    assert (L3 : last_det s' i = last_det s' j) by (unfold last_det; rewrite (mr_last _ _ _ MR); reflexivity).
    rewrite L3, L1, <- L2, (Hc i) by auto. symmetry. exact LG.
Qed.

Theorem labels_never_mix c f lab (s : st) fs : rnd_ok (tc_rnd c) -> tracker_state c s -> s_icount s = 0 ->
  tc_distance c = ScalarDistance f -> video c s fs ->
  (forall f r, In f fs -> d_label (s_heap (f_pre f) r) = lab r) ->
  forall f i, In f fs -> known (f_post f) i -> obj_label (f_post f) i = lab (last_det (f_post f) i).
Proof.
  intros Hr Ht H0 Ed V Hl.
  assert (Hinv : forall i, known s i -> obj_label s i = lab (last_det s i)) by (intros i Hi; unfold known in Hi; lia).
  clear H0. revert s Ht V Hinv Hl. induction fs as [|f0 fs IH]; intros s Ht V Hinv Hl g i Hg Hi; [destruct Hg|].
  destruct (video_cons_inv laws _ _ _ _ V Hr (tracker_state_good _ _ Ht)) as (Gp & Gq & E & Eo & S1 & S2 & S3 & V').
  assert (Ht1 : tracker_state c (f_pre f0)) by (inversion V; subst; cbn; apply ts_meanwhile; auto).
  assert (Hpost : forall i, known (f_post f0) i -> obj_label (f_post f0) i = lab (last_det (f_post f0) i)).
  { intros k Hk. destruct (labels_match _ _ _ _ _ _ _ _ Hr Ht1 Ed E) as (A & B & D).
    rewrite <- (Hl f0 _ (or_introl eq_refl)).
    destruct (le_lt_dec k (s_icount (f_pre f0))) as [Hle|Hgt].
    2:{ apply A; auto. right. unfold known. lia. }
    assert (Hkp : known (f_pre f0) k) by (unfold known in *; lia).
    destruct (Nat.eq_dec (last_det (f_post f0) k) (last_det (f_pre f0) k)) as [Eq|Ne]; [|apply A; auto].
    rewrite Eq, (B k Hkp), (Hl f0 _ (or_introl eq_refl)). unfold obj_label, last_det. rewrite S1.
    apply Hinv. unfold known in *. lia. }
  destruct Hg as [<-|Hg]; [auto|].
  eapply (IH (f_post f0)); eauto.
  - eapply tracker_state_ret; eauto.
  - intros f1 r Hf1. apply Hl. right; exact Hf1.
Qed.

(* ---- C12 ---- *)
Lemma video_state c (s : st) fs : rnd_ok (tc_rnd c) -> tracker_state c s -> video c s fs ->
  forall f, In f fs -> tracker_state c (f_pre f) /\ tracker_state c (f_post f) /\ s_icount s <= s_icount (f_pre f) /\
    s_icount (f_pre f) <= s_icount (f_post f) /\ f_out f = get_active_objects (f_post f).
Proof.
  intros Hr. revert s. induction fs as [|f0 fs IH]; intros s Ht V f Hf; [destruct Hf|].
  destruct (video_cons_inv laws _ _ _ _ V Hr (tracker_state_good _ _ Ht)) as (Gp & Gq & E & Eo & S1 & S2 & S3 & V').
  assert (Ht1 : tracker_state c (f_pre f0)) by (inversion V; subst; cbn; apply ts_meanwhile; auto).
  pose proof (tracker_state_ret _ _ _ _ _ _ _ Ht1 E) as Ht2.
  pose proof (update_icount _ _ _ _ _ _ _ Gp E).
  destruct Hf as [<-|Hf]; [rewrite S3 in *; auto|].
  destruct (IH (f_post f0) Ht2 V' f Hf) as (A & B & C & D & F). repeat split; auto. lia.
Qed.

Lemma becomes_initialized c dets p ct (s s' : st) out i : rnd_ok (tc_rnd c) -> good c s -> (0 <= tc_delay c)%Z ->
  tc_reid_distance c = None -> update c (Some dets) p ct s = (s', Ret out) -> known s' i ->
  o_initializing (s_store s' i) = false -> (known s i -> o_initializing (s_store s i) = true) -> In i (get_active_objects s').
Proof.
  intros Hr Hg Hd Hre E Hk Hini Hbef. rewrite active_iff.
  destruct (le_lt_dec i (s_icount s)) as [Hle|Hgt].
  2:{ destruct (new_object laws _ _ _ _ _ _ _ i Hr Hg E) as (Hti & r & _ & NR); [unfold known in Hk; lia|].
      split; auto. split; auto. unfold hit_counter. rewrite (nr_init _ _ _ _ _ _ _ NR) in Hini.
      rewrite (nr_hit _ _ _ _ _ _ _ NR). apply Z.leb_gt in Hini. lia. }
  assert (Hks : known s i) by (unfold known in *; lia). specialize (Hbef Hks).
  destruct Hg as [T C]. destruct (update_summary laws _ _ _ _ _ _ _ Hr T E) as (H1 & H2 & G & news & S & _). cbn [dets_of] in S.
  assert (G = []) as -> by (apply (su_noreid _ _ _ _ _ _ _ _ _ _ S); auto).
  destruct (in_dec Nat.eq_dec i (kept c s)) as [K|K].
  2:{ rewrite (su_gone _ _ _ _ _ _ _ _ _ _ S) in Hini; auto. congruence. }
  destruct (in_dec Nat.eq_dec i (map h_obj (H1 ++ H2))) as [Hh1|Hh1].
  - destruct (in_hits _ _ Hh1) as (r & d & Hin).
    destruct (su_hit _ _ _ _ _ _ _ _ _ _ S _ _ _ Hin) as (om & U & o1 & F1 & F2).
    assert (Hti : tracked s' i).
    { apply (tracked_old _ _ _ _ _ _ _ _ _ _ _ T S); auto. }
    split; auto. split; auto. unfold hit_counter. rewrite F2 in *. cbn in *.
    rewrite (hr_init _ _ _ _ _ F1), (um_init _ _ U), st_init, Hbef in Hini. cbn in Hini. apply negb_false_iff, Z.ltb_lt in Hini.
    rewrite (um_conf _ _ U), st_conf, (co_delay _ _ (C i Hks)) in Hini. lia.
  - assert (Hmiss := su_missed _ _ _ _ _ _ _ _ _ _ S i K ltac:(rewrite map_app, in_app_iff in Hh1; rewrite !in_app_iff; cbn; tauto)).
    rewrite (um_init _ _ Hmiss), st_init in Hini. congruence.
Qed.

Theorem initialized_iff_returned c (s : st) fs : rnd_ok (tc_rnd c) -> tracker_state c s -> s_icount s = 0 ->
  (0 <= tc_delay c)%Z -> tc_reid_distance c = None -> video c s fs ->
  forall n f i, nth_error fs n = Some f ->
   (known (f_post f) i /\ o_initializing (s_store (f_post f) i) = false <->
    exists m g, m <= n /\ nth_error fs m = Some g /\ In i (f_out g)).
Proof.
  intros Hr Ht H0 Hd Hre V.
  assert (H : forall fs (s : st) seen, tracker_state c s -> video c s fs ->
    (forall i, seen i <-> known s i /\ o_initializing (s_store s i) = false) ->
    forall n f i, nth_error fs n = Some f ->
     (known (f_post f) i /\ o_initializing (s_store (f_post f) i) = false <->
      seen i \/ exists m g, m <= n /\ nth_error fs m = Some g /\ In i (f_out g))).
  2:{ intros n f i Hf. rewrite (H fs s (fun _ => False) Ht V) by (eauto; intros; unfold known; lia). split; [intros [[]|X]; auto|auto]. }
  clear fs s Ht H0 V. induction fs as [|f0 fs IH]; intros s seen Ht V Hseen n f i Hf; [destruct n; discriminate|].
  pose proof (tracker_state_good _ _ Ht) as Hg.
  destruct (video_cons_inv laws _ _ _ _ V Hr Hg) as (Gp & Gq & E & Eo & S1 & S2 & S3 & V').
  assert (Ht1 : tracker_state c (f_pre f0)) by (inversion V; subst; cbn; apply ts_meanwhile; auto).
  pose proof (tracker_state_ret _ _ _ _ _ _ _ Ht1 E) as Ht2.
  assert (Hseen' : forall i, (seen i \/ In i (f_out f0)) <-> known (f_post f0) i /\ o_initializing (s_store (f_post f0) i) = false).
  { intros k. rewrite Eo. split.
    - intros [X|X].
      + apply Hseen in X as [X1 X2]. assert (Hv : known (f_pre f0) k) by (unfold known in *; rewrite S3; auto).
        pose proof (update_evolves _ _ _ _ _ _ _ k Gp E Hv) as [E1 E2 E3 E4]. rewrite S1 in *.
        pose proof (update_icount _ _ _ _ _ _ _ Gp E). split; [unfold known in *; lia|auto].
      + apply active_iff in X as (X1 & X2 & X3). split; auto. apply valid_tracked in X1; [exact X1|apply Gq].
    - intros [X1 X2]. destruct (Hseen k) as [_ B].
      destruct (le_lt_dec k (s_icount s)) as [Hle|Hgt].
      + assert (Hks : known s k) by (unfold known in *; lia).
        destruct (o_initializing (s_store s k)) eqn:Ek; [|left; apply B; auto].
        right. apply (becomes_initialized _ _ _ _ _ _ _ k Hr Gp Hd Hre E X1 X2). intros _. rewrite S1. auto.
      + right. apply (becomes_initialized _ _ _ _ _ _ _ k Hr Gp Hd Hre E X1 X2). intros Z. unfold known in *. rewrite S3 in Z. lia. }
  destruct n as [|n]; cbn in Hf.
  - injection Hf as <-. rewrite <- Hseen'. split.
    + intros [X|X]; auto. right. exists 0, f0. auto.
    + intros [X|(m & g & Hm & Hg' & X)]; auto. assert (m = 0) as -> by lia. cbn in Hg'. injection Hg' as <-. auto.
  - rewrite (IH (f_post f0) (fun i => seen i \/ In i (f_out f0)) Ht2 V' Hseen' n f i Hf). split.
    + intros [[X|X]|(m & g & Hm & Hg' & X)]; auto.
      * right. exists 0, f0. split; [lia|auto].
      * right. exists (S m), g. split; [lia|auto].
    + intros [X|(m & g & Hm & Hg' & X)]; auto. destruct m as [|m]; cbn in Hg'; [injection Hg' as <-; auto|].
      right. exists m, g. split; [lia|auto].
Qed.

(** total_object_count = number of different objects returned so far. *)
Theorem total_count_returned c (s : st) fs f : rnd_ok (tc_rnd c) -> tracker_state c s -> s_icount s = 0 ->
  (0 <= tc_delay c)%Z -> tc_reid_distance c = None -> video c s (fs ++ [f]) ->
  total_object_count (f_post f) = List.length (nodup Nat.eq_dec (List.concat (map f_out (fs ++ [f])))).
Proof.
  intros Hr Ht H0 Hd Hre V.
  pose proof (initialized_iff_returned c s (fs ++ [f]) Hr Ht H0 Hd Hre V (List.length fs) f) as H.
  assert (Hn : nth_error (fs ++ [f]) (List.length fs) = Some f) by (rewrite nth_error_app2, Nat.sub_diag by lia; reflexivity).
  assert (Hs : tracker_state c (f_post f)) by (eapply video_state; eauto; apply in_app_iff; right; left; reflexivity).
  pose proof (tracker_state_good _ _ Hs) as [T _]. unfold total_object_count. rewrite <- (ti_count _ T).
  apply Nat.le_antisymm.
  - apply NoDup_incl_length; [apply NoDup_filter, seq_NoDup|].
    intros i Hi. apply filter_In in Hi as [Hi1 Hi2]. apply in_seq in Hi1. apply negb_true_iff in Hi2.
    apply nodup_In, in_concat. destruct (proj1 (H i Hn)) as (m & g & Hm & Hg & Hin); [split; [unfold known; lia|auto]|].
    exists (f_out g). split; auto. apply in_map. eapply nth_error_In; eauto.
  - apply NoDup_incl_length; [apply NoDup_nodup|].
    intros i Hi. apply nodup_In, in_concat in Hi as (l & Hl & Hil). apply in_map_iff in Hl as (g & <- & Hg).
    destruct (In_nth_error _ _ Hg) as (m & Hm). 
    assert (Hmn : m <= List.length fs).
    { assert (m < List.length (fs ++ [f])) by (apply nth_error_Some; congruence). rewrite app_length in *. cbn in *. lia. }
    destruct (proj2 (H i Hn)) as [K1 K2]; [exists m, g; auto|]. apply filter_In. split; [apply in_seq; unfold known in K1; lia|].
    apply negb_true_iff; auto.
Qed.

(* ---- C22 ---- *)
Theorem merges_keep_identity c dets p ct (s s' : st) out : rnd_ok (tc_rnd c) -> tracker_state c s ->
  update c (Some dets) p ct s = (s', Ret out) ->
  exists merged : list (nat * nat),
    NoDup (map fst merged) /\ NoDup (map snd merged) /\
    (forall i j, In (i, j) merged ->
       let o := s_store s i in let o' := s_store s' i in let n := s_store s j in let n' := s_store s' j in
       tracked s i /\ tracked s j /\ tracked s' i /\ ~ tracked s' j /\
       o_initializing n = true /\ (o_initializing o = false \/ (o_hit o < 0)%Z) /\
       o_id o' = o_id o /\ o_gid o' = o_gid o /\ o_conf o' = o_conf o /\ o_initializing o' = o_initializing o /\
       o_age o' = (o_age o + 1)%Z /\ o_hit o' = (2 * oc_initial_period (o_conf o))%Z /\ o_reid o' = None /\
       o_last_det o' = o_last_det n' /\ In (o_last_det n') dets /\ o_last_distance o' = o_last_distance n' /\
       o_point_hits o' = o_point_hits n' /\ o_once o' = o_once n' /\ o_filter o' = o_filter n' /\
       oc_label (o_conf n) = oc_label (o_conf o) /\
       exists f vn vo d, tc_reid_distance c = Some f /\ f (VObj vn) vo = Ret d /\ v_obj vn = n' /\
         v_obj vo = set_min_distance (o_min_distance (v_obj vo)) (obj_update_ct ct (tracker_step o)) /\
         dlt (tc_rnd c d) (tc_reid_threshold c)) /\
    (forall j, matchable c s j -> ~ tracked s' j -> In j (map snd merged)).
Proof.
  intros Hr Ht E. apply tracker_state_good in Ht as [T C].
  destruct (update_summary laws _ _ _ _ _ _ _ Hr T E) as (H1 & H2 & G & news & S & _). cbn [dets_of] in S.
  exists (map fst G).
  assert (M1 : map fst (map fst G) = map h_obj G) by (rewrite map_map; reflexivity).
  assert (M2 : map snd (map fst G) = map h_det G) by (rewrite map_map; reflexivity).
  rewrite M1, M2. split; [apply (NoDup_app_r (map h_obj H2)), (NoDup_app_r (map h_obj H1)), (su_nodup _ _ _ _ _ _ _ _ _ _ S)|].
  split; [apply (su_nodup_cand _ _ _ _ _ _ _ _ _ _ S)|]. split.
  - intros i j Hij. apply in_map_iff in Hij as ([[i' j'] d] & Eq & Hin). cbn in Eq. injection Eq as -> ->.
    destruct (su_merge _ _ _ _ _ _ _ _ _ _ S _ _ _ Hin) as (om & U & MR).
    destruct (hits_in _ _ _ _ Hin) as [Hgi Hgj].
    assert (Hj2 : In j (map h_obj H2)) by (apply (su_cand _ _ _ _ _ _ _ _ _ _ S); auto).
    assert (Hju : In j (uninits c s)) by (apply (su_obj2 _ _ _ _ _ _ _ _ _ _ S); auto).
    assert (Hjk : In j (kept c s)) by (apply alive_kept, uninits_alive; auto).
    assert (Hik : In i (kept c s)).
    { destruct (su_target _ _ _ _ _ _ _ _ _ _ S i Hgi) as [X|X]; [apply alive_kept, inits_alive, X|apply dead_kept, X]. }
    assert (Hti := kept_tracked _ _ _ Hik). assert (Htj := kept_tracked _ _ _ Hjk).
    pose proof (tracked_old _ _ _ _ _ _ _ _ _ _ _ T S (valid_tracked _ _ T Hti)) as Tri.
    pose proof (tracked_old _ _ _ _ _ _ _ _ _ _ _ T S (valid_tracked _ _ T Htj)) as Trj.
    destruct (in_hits _ _ Hj2) as (r & d2 & Hin2). assert (Hin3 : In (j, r, d2) (H1 ++ H2)) by (apply in_app_iff; auto).
    destruct (su_hit _ _ _ _ _ _ _ _ _ _ S _ _ _ Hin3) as (om2 & _ & X). apply hit_last in X.
    cbv zeta. split; [exact Hti|]. split; [exact Htj|]. split.
    { apply Tri. split; auto. intros Y. apply (su_cand _ _ _ _ _ _ _ _ _ _ S) in Y.
      pose proof (NoDup_app_r _ _ (su_nodup _ _ _ _ _ _ _ _ _ _ S)) as Z. eapply NoDup_app_disj; eauto. }
    split; [rewrite Trj; tauto|].
    split; [unfold uninits in Hju; apply filter_In in Hju; tauto|].
    split.
    { destruct (su_target _ _ _ _ _ _ _ _ _ _ S i Hgi) as [Y|Y].
      - left. unfold inits in Y. apply filter_In in Y as [_ Y]. apply negb_true_iff; auto.
      - right. unfold dead in Y. apply filter_In in Y as [_ Y]. apply negb_true_iff in Y.
        unfold hit_counter_is_positive in Y. apply Z.leb_gt; auto. }
    assert (Hid : o_id om = o_id (s_store s i) /\ o_gid om = o_gid (s_store s i)).
    { destruct U as [m ->]. destruct ct; split; reflexivity. }
    rewrite (mr_id _ _ _ MR), (mr_gid _ _ _ MR), (mr_conf _ _ _ MR), (mr_init _ _ _ MR), (mr_age _ _ _ MR), (mr_hit _ _ _ MR), (mr_reid _ _ _ MR),
      (mr_last _ _ _ MR), (mr_last_distance _ _ _ MR), (mr_points _ _ _ MR), (mr_once _ _ _ MR), (mr_filter _ _ _ MR),
      (um_conf _ _ U), (um_init _ _ U), (um_age _ _ U), st_conf, st_init, st_age.
    split; [apply Hid|]. split; [apply Hid|]. do 6 (split; [reflexivity|]).
    split; [unfold last_det in X; rewrite X; eapply su_dets; eauto|]. do 4 (split; [reflexivity|]).
    split; [apply (su_labelG _ _ _ _ _ _ _ _ _ _ S _ _ _ Hin)|].
    destruct (su_distG _ _ _ _ _ _ _ _ _ _ S _ _ _ Hin) as (f & vj & vo & d3 & D1 & D2 & D3 & D4 & D5).
    exists f, vj, vo, d3. do 3 (split; [assumption|]). split.
    + destruct D5 as [m D5]. rewrite D5. reflexivity.
    + rewrite <- D3. apply (su_belowG _ _ _ _ _ _ _ _ _ _ S _ _ _ Hin).
  - intros j Hm Hn. apply matchable_alive in Hm. assert (Hk := alive_kept _ _ _ Hm).
    pose proof (tracked_old _ _ _ _ _ _ _ _ _ _ _ T S (valid_tracked _ _ T (kept_tracked _ _ _ Hk))) as Trj.
    destruct (in_dec Nat.eq_dec j (map h_det G)); auto. exfalso. apply Hn, Trj. auto.
Qed.
End CallTheorems3.

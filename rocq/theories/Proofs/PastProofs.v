(** The ages of past_detections are ordered. *)
From Coq Require Import ZArith Bool Arith String List Lia Permutation Sorting.Sorted.
From Verif Require Import Model.Num Model.Base Model.Matching Model.Filter Model.Tracker
  Spec.MatchingSpec Spec.IdentitySpec Proofs.NumLaws Proofs.MatchingProofs Proofs.TrackerFrame Proofs.Identity
  Proofs.Effect Proofs.CallEffect Proofs.CallProps Proofs.CallTheorems Spec.CallSpec.
Import ListNotations.

Section PastProofs.
Context {N : Num} {FO : filter_ops N} (laws : NumLaws N).
Notation st := (st FO).
Notation tobj := (tobj FO).
Notation det := (detection N).
Notation frame := (CallSpec.frame FO).

(** Ages of [past] in heap [h]: all known, ascending, between 0 and [top]. *)
Definition asc (h : nat -> det) (past : list nat) (top : Z) : Prop :=
  exists zs, map (fun r => d_age (h r)) past = map Some zs /\ StronglySorted Z.le zs /\ Forall (fun z => 0 <= z <= top)%Z zs.

Lemma asc_nil h top : asc h [] top.
Proof. exists []. repeat split; constructor. Qed.

Lemma asc_ext h h' past top : (forall r, In r past -> d_age (h' r) = d_age (h r)) -> asc h past top -> asc h' past top.
Proof.
  intros H (zs & A & B & C). exists zs. split; [|auto]. rewrite <- A. apply map_ext_in. auto.
Qed.

Lemma asc_le h past top top' : (top <= top')%Z -> asc h past top -> asc h past top'.
Proof.
  intros H (zs & A & B & C). exists zs. split; [auto|split; [auto|]]. eapply Forall_impl; [|exact C]. cbn. lia.
Qed.

Lemma asc_tl h r past top : asc h (r :: past) top -> asc h past top.
Proof.
  intros ([|z zs] & A & B & C); [discriminate|]. injection A as A1 A2. inversion B; inversion C; subst. exists zs. auto.
Qed.

Lemma sorted_snoc zs top : StronglySorted Z.le zs -> Forall (fun z => 0 <= z <= top)%Z zs -> StronglySorted Z.le (zs ++ [top]).
Proof.
  induction 1 as [|z zs H IH F]; intros C; cbn; [repeat constructor|]. inversion C; subst.
  constructor; auto. apply Forall_app. split; auto. constructor; [lia|constructor].
Qed.

Lemma asc_snoc h past top r : (0 <= top)%Z -> asc h past top -> d_age (h r) = Some top -> asc h (past ++ [r]) top.
Proof.
  intros H0 (zs & A & B & C) H. exists (zs ++ [top]). rewrite !map_app, A. cbn. rewrite H. split; [auto|]. split.
  - apply sorted_snoc; auto.
  - apply Forall_app. split; auto. constructor; [lia|constructor].
Qed.

(** Updating the age of [r] to [top]. *)
Lemma asc_upd h past top r : (~ In r past \/ d_age (h r) = Some top) -> asc h past top ->
  asc (upd h r (d_set_age top (h r))) past top.
Proof.
  intros H. apply asc_ext. intros q Hq. destruct (Nat.eq_dec q r) as [->|Hne]; [|rewrite upd_other; auto].
  rewrite upd_same. cbn. destruct H as [H|H]; [contradiction|congruence].
Qed.

(** Heaps that differ at most in the ages of [l]. *)
Definition ages_but (l : list nat) (h h' : nat -> det) : Prop := forall r, ~ In r l -> d_age (h' r) = d_age (h r).

Lemma past_step_asc h (o : tobj) r past' h' : past_step h o r past' h' -> (0 <= o_age o)%Z -> asc h (o_past o) (o_age o) ->
  (~ In r (o_past o) \/ d_age (h r) = Some (o_age o)) ->
  asc h' past' (o_age o) /\ ages_but [r] h h' /\ (d_age (h' r) = d_age (h r) \/ d_age (h' r) = Some (o_age o)) /\
  (In r past' -> In r (o_past o) \/ d_age (h' r) = Some (o_age o)).
Proof.
  intros Hp H0 Ha Hr.
  assert (Hu : ages_but [r] h (upd h r (d_set_age (o_age o) (h r)))).
  { intros q Hq. rewrite upd_other; auto. intros ->. apply Hq. left; auto. }
  assert (Hs : ages_but [r] h h) by (intros q _; reflexivity).
  assert (He : d_age (upd h r (d_set_age (o_age o) (h r)) r) = Some (o_age o)) by (rewrite upd_same; reflexivity).
  destruct Hp as [|A B|first rest a A B C D E|first rest a A B C D E]; [repeat split; auto|..|repeat split; auto].
  - split; [|auto]. apply asc_snoc; auto. apply asc_upd; auto.
  - split; [|auto]. apply asc_snoc; auto. rewrite C in Ha, Hr. apply asc_tl in Ha. apply asc_upd; auto.
    destruct Hr as [Hr|Hr]; [left; intros X; apply Hr; right; auto|auto].
Qed.

(** The invariant; [pend] are detections still to be consumed. *)
Record ainv (pend : list nat) (s : st) : Prop := {
  ai_age : forall i, tracked s i -> (0 <= o_age (s_store s i))%Z;
  ai_asc : forall i, tracked s i -> asc (s_heap s) (o_past (s_store s i)) (o_age (s_store s i));
  ai_disj : forall i j r, tracked s i -> tracked s j -> In r (o_past (s_store s i)) -> In r (o_past (s_store s j)) -> i = j;
  ai_pend : forall i r, tracked s i -> In r (o_past (s_store s i)) -> ~ In r pend
}.

(** Past detections come from [used]. *)
Definition within (used : list nat) (s : st) : Prop := forall i, tracked s i -> incl (o_past (s_store s i)) used.

Lemma ainv_sub pend pend' s : incl pend' pend -> ainv pend s -> ainv pend' s.
Proof. intros H [A B C D]. constructor; auto. intros i r Hi Hr X. apply (D i r Hi Hr). auto. Qed.

Lemma hits_past p l s s' : hits p l s s' -> forall rest used, NoDup (map h_det l ++ rest) -> ainv (map h_det l ++ rest) s -> within used s ->
  ainv rest s' /\ within (map h_det l ++ used) s' /\ s_tracked s' = s_tracked s.
Proof.
  induction 1 as [s|i r dist l s s1 s' u Hh Hl IH]; intros rest used Hnd Hi Hw; [auto|].
  apply hit_ret in Hh as (past' & h' & Hp & Hh1 & Hr & Hpast & [F1 F2 F3 F4] & _).
  cbn in Hnd. change (h_det (i, r, dist)) with r in *. apply NoDup_cons_iff in Hnd as [Hni Hnd'].
  set (s2 := mod_obj i (set_last_distance (Some dist)) s1) in *.
  assert (T2 : s_tracked s2 = s_tracked s) by exact F3.
  assert (S2 : forall k, k <> i -> s_store s2 k = s_store s k).
  { intros k Hk. cbn. rewrite upd_other by auto. auto. }
  assert (S2i : o_past (s_store s2 i) = past' /\ o_age (s_store s2 i) = o_age (s_store s i)).
  { cbn. rewrite upd_same. cbn. split; auto. apply (hr_age _ _ _ _ _ Hr). }
  destruct S2i as [Pi Ai].
  assert (Hinc : incl (o_past (s_store s2 i)) (o_past (s_store s i) ++ [r])) by (rewrite Pi; eapply past_step_incl; eauto).
  assert (Hb : ages_but [r] (s_heap s) (s_heap s2)).
  { change (s_heap s2) with (s_heap s1). rewrite Hh1. destruct Hp; intros q Hq; auto; rewrite upd_other; auto; intros ->; apply Hq; left; auto. }
  destruct Hi as [I0 I1 I2 I3].
  assert (Hr' : forall k, tracked s k -> ~ In r (o_past (s_store s k))).
  { intros k Hk X. apply (I3 k r Hk X). left; auto. }
  assert (Hsub : forall k q, In q (o_past (s_store s2 k)) -> In q (o_past (s_store s k)) \/ (k = i /\ q = r)).
  { intros k q Hq. destruct (Nat.eq_dec k i) as [->|Hne]; [|rewrite S2 in Hq; auto].
    apply Hinc in Hq. apply in_app_iff in Hq as [Hq|[<-|[]]]; auto. }
  assert (Hai : ainv (map h_det l ++ rest) s2).
  { constructor; unfold tracked in *; rewrite ?T2.
    - intros k Hk. destruct (Nat.eq_dec k i) as [->|Hne]; [rewrite Ai; auto|rewrite S2; auto].
    - intros k Hk. destruct (Nat.eq_dec k i) as [->|Hne].
      + rewrite Ai, Pi. change (s_heap s2) with (s_heap s1). rewrite Hh1. destruct (past_step_asc _ _ _ _ _ Hp) as (X & _); auto.
      + rewrite S2 by auto. eapply asc_ext; [|apply I1; auto]. intros q Hq. apply Hb. intros [<-|[]]. apply (Hr' k); auto.
    - intros k k' q Hk Hk' Q1 Q2. apply Hsub in Q1. apply Hsub in Q2.
      destruct Q1 as [Q1|[Q1 Q1']], Q2 as [Q2|[Q2 Q2']]; [exact (I2 k k' q Hk Hk' Q1 Q2)| | |congruence]; exfalso.
      + rewrite Q2' in Q1. exact (Hr' k Hk Q1).
      + rewrite Q1' in Q2. exact (Hr' k' Hk' Q2).
    - intros k q Hk Q X. apply Hsub in Q as [Q|[-> ->]]; [|contradiction]. apply (I3 k q Hk Q). right; auto. }
  destruct (IH rest (r :: used) Hnd' Hai) as (X & Y & Z).
  { intros k Hk q Q. unfold tracked in Hk. rewrite T2 in Hk. apply Hsub in Q as [Q|[-> ->]]; [right; eapply Hw; eauto|left; auto]. }
  split; [exact X|]. split; [|congruence].
  intros k Hk q Q. apply (Y k Hk) in Q. apply in_app_iff in Q as [Q|[<-|Q]]; [right; apply in_app_iff; auto|left; auto|right; apply in_app_iff; auto].
Qed.

Lemma add_pasts_past i rs : forall (s s' : st) u, add_pasts i rs s = (s', Ret u) -> (0 <= o_age (s_store s i))%Z ->
  asc (s_heap s) (o_past (s_store s i)) (o_age (s_store s i)) ->
  (forall r, In r rs -> ~ In r (o_past (s_store s i)) \/ d_age (s_heap s r) = Some (o_age (s_store s i))) ->
  asc (s_heap s') (o_past (s_store s' i)) (o_age (s_store s' i)) /\ o_age (s_store s' i) = o_age (s_store s i).
Proof.
  induction rs as [|r rs IH]; intros s s' u E H0 Ha Hr; cbn in E.
  - injection E as <- _. auto.
  - destruct (cond_add_past i r s) as [t [u0|e]] eqn:E0; [|discriminate].
    apply cond_add_past_ret in E0 as (past' & h' & Hp & Hh & Hst & [F1 F2 F3 F4] & Hc & Hg).
    destruct (past_step_asc _ _ _ _ _ Hp H0 Ha (Hr r (or_introl eq_refl))) as (A1 & A2 & A3 & A4).
    assert (At : o_age (s_store t i) = o_age (s_store s i)) by (rewrite Hst; reflexivity).
    assert (Pt : o_past (s_store t i) = past') by (rewrite Hst; reflexivity).
    apply IH in E.
    + destruct E as [E1 E2]. split; [exact E1|congruence].
    + rewrite At. auto.
    + rewrite At, Pt, Hh. auto.
    + intros q Hq. rewrite At, Pt, Hh. destruct (Nat.eq_dec q r) as [->|Hne].
      * destruct (in_dec Nat.eq_dec r past') as [X|X]; [|auto]. destruct (Hr r (or_introl eq_refl)) as [Y|Y].
        -- destruct (A4 X); [contradiction|auto].
        -- right. destruct A3; congruence.
      * rewrite (A2 q) by (intros [X|[]]; congruence). destruct (Hr q (or_intror Hq)) as [Y|Y]; auto.
        left. intros X. apply past_step_incl in Hp. apply Hp in X. apply in_app_iff in X as [X|[X|[]]]; auto.
Qed.

Lemma add_pasts_heap i rs : forall (s s' : st) u, add_pasts i rs s = (s', Ret u) -> ages_but rs (s_heap s) (s_heap s').
Proof.
  induction rs as [|r rs IH]; intros s s' u E; cbn in E; [injection E as <- _; intros ? _; reflexivity|].
  destruct (cond_add_past i r s) as [t [u0|e]] eqn:E0; [|discriminate].
  apply cond_add_past_ret in E0 as (past' & h' & Hp & Hh & _). apply IH in E. intros q Hq.
  rewrite E by (intros X; apply Hq; right; auto). rewrite Hh.
  destruct Hp; auto; rewrite upd_other; auto; intros ->; apply Hq; left; auto.
Qed.

Lemma merges_past l s s' : merges l s s' -> forall pend used, NoDup (s_tracked s) -> ainv pend s -> within used s ->
  (forall i, In i (map h_obj l) -> ~ In i (map h_det l)) ->
  ainv pend s' /\ within used s' /\ incl (s_tracked s') (s_tracked s) /\ NoDup (s_tracked s').
Proof.
  induction 1 as [s|i j dist l s s1 s' u Hm Hin Hl IH]; intros pend used Hnd Hi Hw Hd; [split; [auto|split; [auto|split; [apply incl_refl|auto]]]|].
  assert (Hij : i <> j). { intros ->. apply (Hd j); left; reflexivity. }
  unfold merge in Hm.
  assert (HF := Hm). apply add_pasts_ret in HF as ([G1 G2 G3 G4] & _ & _ & past' & Gst & Gi).
  cbn in G3, G4, Gst, Gi. rewrite upd_same in Gst, Gi. cbn in Gi.
  pose proof (add_pasts_heap _ _ _ _ _ Hm) as Hb. cbn in Hb.
  assert (Hasc := add_pasts_past _ _ _ _ _ Hm). cbn in Hasc. rewrite upd_same in Hasc. cbn in Hasc.
  set (s2 := s_set_tracked (remove_first j (s_tracked s1)) s1) in *.
  assert (T2 : forall k, tracked s2 k -> tracked s k /\ k <> j).
  { intros k Hk. unfold tracked in *. cbn in Hk. rewrite G3, remove_first_filter in Hk by auto.
    apply filter_In in Hk as [A B]. split; auto. intros ->. rewrite Nat.eqb_refl in B. discriminate. }
  assert (S2 : forall k, k <> i -> s_store s2 k = s_store s k).
  { intros k Hk. cbn. rewrite G2 by auto. cbn. apply upd_other; auto. }
  rewrite G3 in Hin. assert (Tj : tracked s j) by exact Hin.
  destruct Hi as [I0 I1 I2 I3].
  assert (Hsub : forall k q, In q (o_past (s_store s2 k)) -> In q (o_past (s_store s k)) \/ (k = i /\ In q (o_past (s_store s j)))).
  { intros k q Hq. destruct (Nat.eq_dec k i) as [->|Hne]; [|rewrite S2 in Hq; auto].
    cbn in Hq. rewrite Gst in Hq. cbn in Hq. apply Gi in Hq. apply in_app_iff in Hq as [Hq|Hq]; auto. }
  assert (Hai : ainv pend s2).
  { constructor.
    - intros k Hk. apply T2 in Hk as [Hk Hne]. destruct (Nat.eq_dec k i) as [->|Hne']; [|rewrite S2; auto].
      cbn. rewrite Gst. cbn. auto.
    - intros k Hk. apply T2 in Hk as [Hk Hne]. destruct (Nat.eq_dec k i) as [->|Hne'].
      + cbn. apply Hasc; auto. intros r Hr. left. intros X. apply Hij. eapply I2; eauto.
      + rewrite S2 by auto. cbn. eapply asc_ext; [|apply I1; auto]. intros q Hq. apply Hb. intros X. apply Hne. eapply I2; eauto.
    - intros k k' q Hk Hk' Q1 Q2. apply T2 in Hk as [Hk N1]. apply T2 in Hk' as [Hk' N2]. apply Hsub in Q1. apply Hsub in Q2.
      destruct Q1 as [Q1|[-> Q1]], Q2 as [Q2|[-> Q2]]; auto; [eapply I2; eauto|exfalso; apply N1; eapply I2; eauto|exfalso; apply N2; eapply I2; eauto].
    - intros k q Hk Q X. apply T2 in Hk as [Hk N1]. apply Hsub in Q as [Q|[-> Q]]; [apply (I3 k q Hk Q X)|apply (I3 j q Tj Q X)]. }
  destruct (IH pend used) as (X & Y & Z & W); auto.
  { cbn. apply remove_first_NoDup. rewrite G3. auto. }
  { intros k Hk q Q. apply T2 in Hk as [Hk N1]. apply Hsub in Q as [Q|[-> Q]]; [exact (Hw k Hk q Q)|exact (Hw j Tj q Q)]. }
  { intros k Hk Hk'. apply (Hd k); right; auto. }
  split; [exact X|split; [exact Y|split; [|exact W]]]. intros k Hk. apply Z in Hk. apply (T2 k Hk).
Qed.

Lemma creates_past c rs p ct : forall (s s' : st) u, create_objects c (map CDet rs) p ct s = (s', Ret u) ->
  forall rest used, NoDup (rs ++ rest) -> ainv (rs ++ rest) s -> within used s -> (forall i, tracked s i -> i <= s_icount s) ->
  ainv rest s' /\ within (rs ++ used) s'.
Proof.
  induction rs as [|r rs IH]; intros s s' u E rest used Hnd Hi Hw Ht; cbn in E; [injection E as <- _; auto|].
  cbn in Hnd. apply NoDup_cons_iff in Hnd as [Hni Hnd'].
  set (s2 := create_object c r p ct s) in *.
  destruct (create_object_effect c r p ct s) as [A B C D F]. fold s2 in A, B, C, D, F.
  specialize (B 0 ltac:(cbn; lia)). rewrite Nat.add_0_r in B. cbn [nth List.length seq] in *.
  set (n := S (s_icount s)) in *.
  assert (Pn : o_past (s_store s2 n) = if Nat.ltb 0 (tc_past_len c) then [r] else []) by apply (nr_past _ _ _ _ _ _ _ B).
  assert (An : o_age (s_store s2 n) = 0%Z) by apply (nr_age _ _ _ _ _ _ _ B).
  assert (Hh : d_age (s_heap s2 r) = Some 0%Z /\ ages_but [r] (s_heap s) (s_heap s2)).
  { subst s2. unfold create_object. cbv zeta. destruct (p <=? tc_delay c)%Z; cbn; (split; [rewrite upd_same; reflexivity|]);
    intros q Hq; rewrite upd_other; auto; intros ->; apply Hq; left; auto. }
  destruct Hh as [Hr Hb].
  assert (T2 : forall k, tracked s2 k -> (tracked s k /\ s_store s2 k = s_store s k /\ k <> n) \/ k = n).
  { intros k Hk. unfold tracked in Hk. rewrite D in Hk. apply in_app_iff in Hk as [Hk|[<-|[]]]; auto. left.
    specialize (Ht k Hk). split; [exact Hk|]. split; [apply C; lia|unfold n; lia]. }
  assert (Pr : forall q, In q (o_past (s_store s2 n)) -> q = r).
  { rewrite Pn. destruct (Nat.ltb 0 (tc_past_len c)); [|intros ? []]. intros q [<-|[]]. auto. }
  destruct Hi as [I0 I1 I2 I3].
  assert (Hr' : forall k, tracked s k -> ~ In r (o_past (s_store s k))) by (intros k Hk X; apply (I3 k r Hk X); left; auto).
  eapply IH with (rest := rest) (used := r :: used) in E.
  - destruct E as [X Y]. split; [exact X|]. intros k Hk q Q. apply (Y k Hk) in Q.
    apply in_app_iff in Q as [Q|[<-|Q]]; [right; apply in_app_iff; auto|left; auto|right; apply in_app_iff; auto].
  - exact Hnd'.
  - constructor.
    + intros k Hk. destruct (T2 k Hk) as [(Hk' & -> & _)| ->]; auto. rewrite An. lia.
    + intros k Hk. destruct (T2 k Hk) as [(Hk' & -> & _)| ->].
      * eapply asc_ext; [|apply I1; auto]. intros q Hq. apply Hb. intros [<-|[]]. apply (Hr' k); auto.
      * rewrite An, Pn. destruct (Nat.ltb 0 (tc_past_len c)); [|apply asc_nil].
        change [r] with ([] ++ [r]). apply asc_snoc; [lia|apply asc_nil|auto].
    + intros k k' q Hk Hk' Q1 Q2. destruct (T2 k Hk) as [(K & E1 & _)| ->], (T2 k' Hk') as [(K' & E2 & _)| ->]; auto.
      * rewrite E1 in Q1. rewrite E2 in Q2. eapply I2; eauto.
      * rewrite E1 in Q1. apply Pr in Q2. subst q. exfalso. apply (Hr' k); auto.
      * rewrite E2 in Q2. apply Pr in Q1. subst q. exfalso. apply (Hr' k'); auto.
    + intros k q Hk Q X. destruct (T2 k Hk) as [(K & E1 & _)| ->].
      * rewrite E1 in Q. apply (I3 k q K Q). right; auto.
      * apply Pr in Q. subst q. contradiction.
  - intros k Hk q Q. destruct (T2 k Hk) as [(K & E1 & _)| ->]; [rewrite E1 in Q; right; eapply Hw; eauto|].
    apply Pr in Q. left; auto.
  - intros k Hk. rewrite F. cbn. destruct (T2 k Hk) as [(K & _)| ->]; [specialize (Ht k K); lia|unfold n; lia].
Qed.

Lemma update_dets_ct_ages T ds : forall (s : st) r, d_age (s_heap (update_dets_ct T ds s) r) = d_age (s_heap s r).
Proof.
  induction ds as [|d ds IH]; intros s r; cbn; auto. rewrite IH. cbn.
  destruct (Nat.eq_dec r d) as [->|Hne]; [rewrite upd_same; reflexivity|rewrite upd_other; auto].
Qed.

Lemma stepped_past c dets ct (s s0 : st) pend used : stepped c dets ct s s0 -> ainv pend s -> within used s ->
  ainv pend s0 /\ within used s0.
Proof.
  intros Hst [I0 I1 I2 I3] Hw.
  assert (T : forall k, tracked s0 k -> tracked s k /\ o_past (s_store s0 k) = o_past (s_store s k) /\
     o_age (s_store s0 k) = (o_age (s_store s k) + 1)%Z).
  { intros k Hk. unfold tracked in *. rewrite (sp_tracked _ _ _ _ _ Hst) in Hk. split; [eapply kept_tracked; eauto|].
    rewrite (sp_step _ _ _ _ _ Hst) by auto. rewrite st_past, st_age. auto. }
  assert (Hh : forall r, d_age (s_heap s0 r) = d_age (s_heap s r)).
  { intros r. rewrite (sp_heap _ _ _ _ _ Hst). unfold ct_heap. destruct ct; auto. apply update_dets_ct_ages. }
  split; [constructor|].
  - intros k Hk. destruct (T k Hk) as (A & B & C). rewrite C. specialize (I0 k A). lia.
  - intros k Hk. destruct (T k Hk) as (A & B & C). rewrite B, C. eapply asc_ext; [intros; apply Hh|].
    eapply asc_le; [|apply I1; auto]. lia.
  - intros k k' q Hk Hk' Q1 Q2. destruct (T k Hk) as (A & B & _), (T k' Hk') as (A' & B' & _). rewrite B in Q1. rewrite B' in Q2. eauto.
  - intros k q Hk Q. destruct (T k Hk) as (A & B & _). rewrite B in Q. eauto.
  - intros k Hk. destruct (T k Hk) as (A & B & _). rewrite B. auto.
Qed.

Lemma min_past objects (s s1 : st) pend used : min_frame objects s s1 -> ainv pend s -> within used s -> ainv pend s1 /\ within used s1.
Proof.
  intros [m1 m2 m3 m4 m5 m6 m7] [I0 I1 I2 I3] Hw.
  assert (P : forall k, o_past (s_store s1 k) = o_past (s_store s k)) by (intros k; apply um_past; auto).
  assert (A : forall k, o_age (s_store s1 k) = o_age (s_store s k)) by (intros k; destruct (m2 k) as [m ->]; reflexivity).
  unfold tracked in *.
  split; [constructor|]; unfold tracked; rewrite ?m4.
  - intros. rewrite A; auto.
  - intros. rewrite A, P, m1; auto.
  - intros i j r. rewrite !P. eauto.
  - intros i r. rewrite !P. eauto.
  - intros i Hi. unfold tracked in Hi. rewrite m4 in Hi. rewrite P. apply Hw; auto.
Qed.

Lemma phase_hits_past c objects rs p (s s' : st) H rest un pend used : NoDup objects ->
  phase_hits c objects rs p s s' H rest un -> NoDup (rs ++ pend) ->
  ainv (rs ++ pend) s -> within used s -> ainv (rest ++ pend) s' /\ within (rs ++ used) s' /\ NoDup (rest ++ pend) /\ s_tracked s' = s_tracked s.
Proof.
  intros Hno HP Hnd Hi Hw. destruct (phase_hits_facts _ _ _ _ _ _ _ _ _ Hno HP) as (_ & Hperm & _ & _ & Htr & _).
  destruct HP as [(M & pairs & sa & [Pm Pr Pn Pf Pmin] & -> & Hh & _ & _)].
  destruct (min_past _ _ _ _ _ Pmin Hi Hw) as [Hi1 Hw1].
  assert (Hnd' : NoDup (map h_det (map (mk_hit M objects rs) pairs) ++ rest ++ pend)).
  { rewrite app_assoc. eapply Permutation_NoDup; [|exact Hnd]. apply Permutation_app_tail. exact Hperm. }
  destruct (hits_past _ _ _ _ Hh (rest ++ pend) used Hnd') as (X & Y & Z); auto.
  { eapply ainv_sub; [|exact Hi1]. rewrite app_assoc. intros q Hq. apply in_app_iff in Hq as [Hq|Hq]; apply in_app_iff; auto.
    left. eapply Permutation_in; [symmetry; exact Hperm|auto]. }
  split; [exact X|]. split; [|split; [apply NoDup_app_r in Hnd'; exact Hnd'|exact Htr]].
  intros k Hk q Q. apply (Y k Hk) in Q. apply in_app_iff in Q as [Q|Q]; apply in_app_iff; auto.
  left. eapply Permutation_in; [symmetry; exact Hperm|]. apply in_app_iff; auto.
Qed.

Theorem update_past c dets p ct (s s' : st) out used : rnd_ok (tc_rnd c) -> good c s ->
  update c (Some dets) p ct s = (s', Ret out) -> NoDup dets -> ainv dets s -> within used s ->
  ainv [] s' /\ within (dets ++ used) s'.
Proof.
  intros Hr [T C] E Hnd Hi Hw. assert (Htr : NoDup (s_tracked s)) by apply (ti_nodup _ T).
  destruct (update_effect laws _ _ _ _ _ _ _ Hr Htr E) as (s0 & s1 & s2 & s3 & H1 & H2 & G & rest1 & news & un1 & Ef & _ & _).
  destruct Ef as [Est P1 [un2 P2] P3 Ec [u Er]]. cbn [dets_of] in *.
  destruct (stepped_past _ _ _ _ _ _ _ Est Hi Hw) as [Hi0 Hw0].
  assert (Nk : NoDup (kept c s)) by (apply NoDup_filter; auto).
  assert (Na : NoDup (alive c s)) by (apply NoDup_filter; auto).
  assert (Ni : NoDup (inits c s)) by (apply NoDup_filter; auto).
  assert (Nu : NoDup (uninits c s)) by (apply NoDup_filter; auto).
  destruct (phase_hits_past _ _ _ _ _ _ _ _ _ [] used Ni P1) as (Hi1 & Hw1 & Hn1 & T1); auto; try (rewrite app_nil_r; auto).
  rewrite app_nil_r in Hi1, Hn1.
  destruct (phase_hits_past _ _ _ _ _ _ _ _ _ [] (dets ++ used) Nu P2) as (Hi2 & Hw2 & Hn2 & T2); auto; try (rewrite app_nil_r; auto).
  destruct (phase_hits_facts _ _ _ _ _ _ _ _ _ Ni P1) as (_ & Pd1 & Po1 & _ & _ & IC1 & _).
  destruct (phase_hits_facts _ _ _ _ _ _ _ _ _ Nu P2) as (NH2 & Pd2 & Po2 & _ & _ & IC2 & _).
  assert (Hdis : forall i, In i (un1 ++ dead c s) -> ~ In i (map h_obj H2)).
  { intros i Hi' X. assert (U : In i (uninits c s)) by (eapply Permutation_in; [symmetry; exact Po2|apply in_app_iff; auto]).
    apply in_app_iff in Hi' as [Y|Y].
    - apply (inits_not_uninits c s i); auto. eapply Permutation_in; [symmetry; exact Po1|]. apply in_app_iff; auto.
    - apply (alive_not_dead c s i); auto. apply uninits_alive; auto. }
  assert (HT2 : NoDup (s_tracked s2)) by (rewrite T2, T1, (sp_tracked _ _ _ _ _ Est); auto).
  assert (No : NoDup (un1 ++ dead c s)).
  { apply NoDup_app_intro.
    - eapply NoDup_app_r. eapply Permutation_NoDup; [exact Po1|auto].
    - apply NoDup_filter; auto.
    - intros x X Y. apply (alive_not_dead c s x); auto. apply inits_alive. eapply Permutation_in; [symmetry; exact Po1|]. apply in_app_iff; auto. }
  destruct (phase_merges_facts _ _ _ _ _ _ _ No NH2 Hdis HT2 P3) as (_ & _ & IGo & IGd & _ & T3 & _ & IC3 & _).
  assert (H3 : ainv news s3 /\ within (rest1 ++ dets ++ used) s3).
  { rewrite app_nil_r in Hi2. destruct P3 as [(_ & -> & ->)|(f & M & pairs & sa & _ & [Pm Pr Pn Pf Pmin] & -> & Hm)]; auto.
    destruct (min_past _ _ _ _ _ Pmin Hi2 Hw2) as [Hia Hwa].
    destruct (merges_past _ _ _ Hm news (rest1 ++ dets ++ used)) as (X & Y & _); auto.
    - rewrite (mf_tracked _ _ _ Pmin). auto.
    - intros i X Y. apply (Hdis i); auto. }
  destruct H3 as [Hi3 Hw3]. rewrite app_nil_r in Hn2.
  destruct (creates_past _ _ _ _ _ _ _ Er [] (rest1 ++ dets ++ used)) as [X Y]; rewrite ?app_nil_r; auto.
  { intros i Hti. unfold tracked in Hti. rewrite T3 in Hti. apply filter_In in Hti as [Hti _].
    rewrite T2, T1, (sp_tracked _ _ _ _ _ Est) in Hti. apply kept_tracked in Hti. apply (valid_tracked _ _ T) in Hti.
    rewrite IC3, IC2, IC1, (sp_icount _ _ _ _ _ Est). unfold valid in Hti. lia. }
  split; [exact X|]. intros k Hk q Q. apply (Y k Hk) in Q.
  assert (R1 : incl rest1 dets) by (intros z Hz; eapply Permutation_in; [symmetry; exact Pd1|apply in_app_iff; auto]).
  assert (R2 : incl news rest1) by (intros z Hz; eapply Permutation_in; [symmetry; exact Pd2|apply in_app_iff; auto]).
  rewrite !in_app_iff in Q. apply in_app_iff. destruct Q as [Q|[Q|[Q|Q]]]; auto.
Qed.

(** C23. *)
Theorem past_ages c (s : st) fs : rnd_ok (tc_rnd c) -> tracker_state c s -> s_icount s = 0 -> video c s fs ->
  NoDup (List.concat (map f_dets fs)) ->
  (forall n f g r, nth_error fs n = Some f -> nth_error fs (S n) = Some g -> In r (List.concat (map f_dets (firstn (S n) fs))) ->
     d_age (s_heap (f_pre g) r) = d_age (s_heap (f_post f) r)) ->
  forall f i, In f fs -> tracked (f_post f) i ->
  exists ages, map (fun r => d_age (s_heap (f_post f) r)) (o_past (s_store (f_post f) i)) = map Some ages /\
    StronglySorted Z.le ages /\ Forall (fun a => 0 <= a <= o_age (s_store (f_post f) i))%Z ages.
Proof.
  intros Hr Ht H0 V Hnd Hage.
  assert (H : forall fs (s : st) used, tracker_state c s -> video c s fs -> ainv [] s -> within used s ->
    NoDup (used ++ List.concat (map f_dets fs)) ->
    (forall f, nth_error fs 0 = Some f -> forall r, In r used -> d_age (s_heap (f_pre f) r) = d_age (s_heap s r)) ->
    (forall n f g r, nth_error fs n = Some f -> nth_error fs (S n) = Some g -> In r (used ++ List.concat (map f_dets (firstn (S n) fs))) ->
       d_age (s_heap (f_pre g) r) = d_age (s_heap (f_post f) r)) ->
    forall f, In f fs -> ainv [] (f_post f)).
  2:{ intros f i Hf Hi. eapply (ai_asc [] (f_post f)); [|exact Hi].
      assert (Hno : forall i, ~ tracked s i).
      { intros k Hk. apply (valid_tracked _ _ (proj1 (tracker_state_good _ _ Ht))) in Hk. unfold valid in Hk. lia. }
      eapply (H fs s []); auto.
      - constructor; intros k; intros; exfalso; eapply Hno; eauto.
      - intros k Hk. exfalso; eapply Hno; eauto.
      - intros ? ? ? []. }
  clear -Hr laws. intros fs. induction fs as [|f0 fs IH]; intros s used Ht V Hi Hw Hnd Hfst Hage f Hf; [destruct Hf|].
  pose proof (tracker_state_good _ _ Ht) as Hg.
  destruct (video_cons_inv laws _ _ _ _ V Hr Hg) as (Gp & Gq & E & Eo & S1 & S2 & S3 & V').
  assert (Ht1 : tracker_state c (f_pre f0)) by (inversion V; subst; cbn; apply ts_meanwhile; auto).
  pose proof (tracker_state_ret _ _ _ _ _ _ _ Ht1 E) as Ht2.
  cbn [map List.concat] in Hnd.
  assert (Hd0 : forall r, In r used -> ~ In r (f_dets f0)).
  { intros r X Y. eapply NoDup_app_disj; [exact Hnd|exact X|]. apply in_app_iff; auto. }
  assert (Hi1 : ainv (f_dets f0) (f_pre f0)).
  { destruct Hi as [I0 I1 I2 I3]. constructor; unfold tracked in *; rewrite ?S1, ?S2.
    - auto.
    - intros i Hi. eapply asc_ext; [|apply I1; auto]. intros r Hin. apply (Hfst f0 eq_refl). eapply Hw; eauto.
    - eauto.
    - intros i r Hi Hin. apply Hd0. eapply Hw; eauto. }
  assert (Hw1 : within used (f_pre f0)).
  { intros i Hi'. unfold tracked in Hi'. rewrite S2 in Hi'. rewrite S1. apply Hw; auto. }
  destruct (update_past _ _ _ _ _ _ _ used Hr Gp E) as [X Y]; auto.
  { apply NoDup_app_r in Hnd. eapply NoDup_app_r. eapply Permutation_NoDup; [|exact Hnd]. apply Permutation_app_comm. }
  destruct Hf as [<-|Hf]; [exact X|].
  apply (IH (f_post f0) (used ++ f_dets f0)); auto.
  - intros k Hk q Q. apply (Y k Hk) in Q. rewrite in_app_iff in *. tauto.
  - rewrite <- app_assoc. exact Hnd.
  - intros g Hg' r Hin. apply (Hage 0 f0 g r eq_refl); [exact Hg'|]. cbn. rewrite app_nil_r. exact Hin.
  - intros n f1 g r Hf1 Hg1 Hin. apply (Hage (S n) f1 g r); auto. rewrite <- app_assoc in Hin. exact Hin.
Qed.
End PastProofs.

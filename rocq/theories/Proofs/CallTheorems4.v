(** Bounds that hold in every state, points, exceptions, calls without detections, estimates. *)
From Coq Require Import ZArith Bool Arith String List Lia Permutation Sorting.Sorted.
From Verif Require Import Model.Num Model.Base Model.Matching Model.Filter Model.Tracker
  Spec.MatchingSpec Spec.IdentitySpec Spec.CallSpec Proofs.NumLaws Proofs.MatchingProofs Proofs.TrackerFrame Proofs.Identity
  Proofs.Effect Proofs.CallEffect Proofs.CallProps Proofs.CallTheorems Proofs.CallTheorems2 Proofs.CallTheorems3.
Import ListNotations.

Section CallTheorems4.
Context {N : Num} {FO : filter_ops N} (laws : NumLaws N).
Notation st := (st FO).
Notation tobj := (tobj FO).
Notation frame := (CallSpec.frame FO).

(* ---- invariants of single objects ---- *)

(** A property of objects preserved by everything norfair does to an object. *)
Lemma prims_obj_inv (c : tconf FO) (P : tobj -> Prop) :
  (forall i r (s : st), P (s_store s i) -> P (s_store (fst (cond_add_past i r s)) i)) ->
  (forall o o', omut o o' -> P o -> P o') ->
  (forall co o, tc_reid_distance c <> None -> P co -> P o -> P (merge_obj co o)) ->
  (forall o, P o -> P (set_initializing false o)) ->
  (forall i g o, P o -> P (set_ids i g o)) ->
  (forall r p ct (s : st), P (s_store (create_object c r p ct s) (S (s_icount s)))) ->
  forall s s', prims c s s' -> (forall i, valid s i -> P (s_store s i)) -> forall i, valid s' i -> P (s_store s' i).
Proof.
  intros Hpast Hmut Hmerge Hinit Hids Hnew s s' Hp. induction Hp as [|s s1 s2 Hp _ IH]; auto.
  intros HP. apply IH. clear IH.
  destruct Hp as [T r s|i r s|i f s Hf|i j0 s Hre0 Hj0|i s Hv Hi|l s Hnd Hincl|r p ct s]; intros j Hj.
  - apply HP. exact Hj.
  - assert (Hj' : valid s j) by (destruct (cond_add_past_counts i r s) as (A & _); unfold valid in *; rewrite A in Hj; exact Hj).
    destruct (Nat.eq_dec j i) as [->|Hne]; [apply Hpast; auto|].
    enough (s_store (fst (cond_add_past i r s)) j = s_store s j) as -> by auto.
    unfold cond_add_past. destruct (Nat.eqb _ 0); [reflexivity|]. destruct (Nat.ltb _ _); [cbn; apply upd_other; auto|].
    destruct (o_past _); [reflexivity|]. destruct (d_age _); [|reflexivity]. destruct (_ <=? _)%Z; [cbn; apply upd_other; auto|reflexivity].
  - cbn. destruct (Nat.eq_dec j i) as [->|Hne]; [rewrite upd_same|rewrite upd_other by auto; auto]. eapply Hmut; eauto.
  - cbn. destruct (Nat.eq_dec j i) as [->|Hne]; [rewrite upd_same|rewrite upd_other by auto; auto]. auto.
  - cbn. destruct (Nat.eq_dec j i) as [->|Hne]; [rewrite !upd_same|rewrite !upd_other by auto; auto]. auto.
  - apply HP. exact Hj.
  - destruct (Nat.eq_dec j (S (s_icount s))) as [->|Hne]; [apply Hnew|].
    assert (Hj' : valid s j).
    { unfold create_object, valid in *. cbv zeta in Hj. destruct (p <=? tc_delay c)%Z; cbn in Hj; lia. }
    unfold create_object. cbv zeta. destruct (p <=? tc_delay c)%Z; cbn; rewrite !upd_other by auto; auto.
Qed.

Lemma tracker_state_inv (c : tconf FO) (P : tobj -> Prop) :
  (forall s s' : st, prims c s s' -> (forall i, valid s i -> P (s_store s i)) -> forall i, valid s' i -> P (s_store s' i)) ->
  forall s, tracker_state c s -> forall i, known s i -> P (s_store s i).
Proof.
  intros Hpr s Ht. induction Ht as [h g d|s h g H IH Hg|s dets p ct H IH].
  - intros i Hi. unfold known in Hi. cbn in Hi. lia.
  - exact IH.
  - intros i Hi. eapply Hpr; [|exact IH|exact Hi]. apply update_prims. apply tracker_state_good in H. apply (ti_valid _ (proj1 H)).
Qed.

Lemma new_object_fields c r p ct (s : st) : exists o, s_store (create_object c r p ct s) (S (s_icount s)) = o /\
  o_hit o = p /\ o_conf o = MkOconf (S (s_icount s)) (List.length (d_absolute_points (s_heap s r)))
     (match d_absolute_points (s_heap s r) with [] => 0 | x :: _ => List.length x end)
     (tc_hit_counter_max c) (Z.max (tc_pointwise_max c) p) (tc_delay c) (tc_det_thr c) p
     (tc_reid_max c) (tc_past_len c) (d_label (s_heap s r)) /\
  o_past o = (if Nat.ltb 0 (tc_past_len c) then [r] else []).
Proof.
  eexists. split; [reflexivity|]. unfold create_object. cbv zeta. destruct (p <=? tc_delay c)%Z; cbn; rewrite ?upd_same; auto.
Qed.

(* ---- C15 ---- *)
Theorem hit_counter_bounded c (s : st) i : tracker_state c s -> known s i ->
  let p0 := oc_initial_period (o_conf (s_store s i)) in
  (hit_counter s i <= Z.max (tc_hit_counter_max c) (Z.max p0 (2 * p0)))%Z /\
  (tc_reid_distance c = None -> hit_counter s i <= Z.max (tc_hit_counter_max c) p0)%Z.
Proof.
  intros Ht Hi. cbv zeta.
  pose proof (co_hcm _ _ (proj2 (tracker_state_good _ _ Ht) i Hi)) as Hc. rewrite <- Hc. clear Hc. unfold hit_counter.
  pose (P := fun o : tobj =>
    (o_hit o <= Z.max (oc_hit_counter_max (o_conf o)) (Z.max (oc_initial_period (o_conf o)) (2 * oc_initial_period (o_conf o))))%Z /\
    (tc_reid_distance c = None -> o_hit o <= Z.max (oc_hit_counter_max (o_conf o)) (oc_initial_period (o_conf o)))%Z).
  change (P (s_store s i)). apply (tracker_state_inv c P); auto.
  clear s i Ht Hi. apply (prims_obj_inv c P); unfold P; clear P.
  - intros i r s H. destruct (cond_add_past i r s) as [t res] eqn:E. cbn.
    assert (X : exists l, s_store t i = set_past l (s_store s i)).
    { revert E. unfold cond_add_past. assert (D : exists l, s_store s i = set_past l (s_store s i)) by (exists (o_past (s_store s i)); rewrite set_past_same; auto).
      destruct (Nat.eqb _ 0); [intros E; injection E as <- _; auto|]. destruct (Nat.ltb _ _); cbn; [intros E; injection E as <- _; cbn; rewrite upd_same; eauto|].
      destruct (o_past _); [intros E; injection E as <- _; auto|]. destruct (d_age _); [|intros E; injection E as <- _; auto].
      destruct (_ <=? _)%Z; intros E; injection E as <- _; auto. cbn. rewrite upd_same. eauto. }
    destruct X as [l ->]. exact H.
  - intros o o' Hm [A B]. destruct Hm; cbn [o_hit o_conf set_last_det set_hit set_point_hits set_filter set_once set_min_distance set_last_distance]; auto.
    + rewrite st_hit, st_conf. split; [lia|]. intros X. specialize (B X). lia.
    + split; [lia|]. intros X. lia.
  - intros co o Hre _ _. cbn [o_hit o_conf merge_obj set_filter set_once set_last_det set_min_distance set_last_distance set_point_hits set_hit set_reid]. split; [lia|intros; contradiction].
  - auto.
  - auto.
  - intros r p ct s. destruct (new_object_fields c r p ct s) as (o & -> & A & B & D). rewrite A, B. cbn [oc_hit_counter_max oc_initial_period].
    split; [lia|]. intros; lia.
Qed.

(* ---- C23 ---- *)
Theorem past_detections_bounded c (s : st) i : tracker_state c s -> known s i ->
  List.length (o_past (s_store s i)) <= tc_past_len c.
Proof.
  intros Ht Hi. rewrite <- (co_past _ _ (proj2 (tracker_state_good _ _ Ht) i Hi)).
  pose (P := fun o : tobj => List.length (o_past o) <= oc_past_len (o_conf o)).
  change (P (s_store s i)). apply (tracker_state_inv c P); auto.
  clear s i Ht Hi. apply (prims_obj_inv c P); unfold P; clear P; auto.
  - intros i r s H. unfold cond_add_past.
    destruct (Nat.eqb_spec (oc_past_len (o_conf (s_store s i))) 0) as [E0|E0]; [auto|].
    destruct (Nat.ltb_spec (List.length (o_past (s_store s i))) (oc_past_len (o_conf (s_store s i)))) as [E1|E1]; cbn.
    { rewrite upd_same. cbn. rewrite app_length. cbn. lia. }
    destruct (o_past (s_store s i)) as [|first rest] eqn:Ep; [cbn; rewrite Ep; exact H|].
    destruct (d_age (s_heap s first)) as [a|]; [|cbn; rewrite Ep; exact H]. destruct (_ <=? _)%Z; cbn; [|rewrite Ep; exact H].
    rewrite upd_same. cbn. rewrite app_length. cbn in *. lia.
  - intros o o' Hm A. destruct Hm; cbn; auto. rewrite st_past, st_conf. auto.
  - intros r p ct s. destruct (new_object_fields c r p ct s) as (o & -> & A & B & D). rewrite D, B. cbn [oc_past_len].
    destruct (Nat.ltb_spec 0 (tc_past_len c)); cbn; lia.
Qed.

Theorem past_detections_matched c (s : st) fs : rnd_ok (tc_rnd c) -> tracker_state c s -> s_icount s = 0 -> video c s fs ->
  forall n f i r, nth_error fs n = Some f -> known (f_post f) i -> In r (o_past (s_store (f_post f) i)) ->
  exists m g j, m <= n /\ nth_error fs m = Some g /\ In r (f_dets g) /\ last_det (f_post g) j = r /\
    (j = i \/ tc_reid_distance c <> None).
Proof.
  intros Hr Ht H0 V.
  assert (H : forall fs (s : st) (ok : nat -> nat -> Prop), tracker_state c s -> video c s fs ->
    (forall i r, known s i -> In r (o_past (s_store s i)) -> ok i r) ->
    forall n f i r, nth_error fs n = Some f -> known (f_post f) i -> In r (o_past (s_store (f_post f) i)) ->
    (exists j, ok j r /\ (j = i \/ tc_reid_distance c <> None)) \/ exists m g j, m <= n /\ nth_error fs m = Some g /\ In r (f_dets g) /\ last_det (f_post g) j = r /\
      (j = i \/ tc_reid_distance c <> None)).
  2:{ intros n f i r Hf Hk Hin. destruct (H fs s (fun _ _ => False) Ht V) with (n := n) (f := f) (i := i) (r := r) as [(j & [] & _)|X]; auto.
      intros k q Hkk _. unfold known in Hkk. lia. }
  clear fs s Ht H0 V. induction fs as [|f0 fs IH]; intros s ok Ht V Hok n f i r Hf Hk Hin; [destruct n; discriminate|].
  pose proof (tracker_state_good _ _ Ht) as Hg.
  destruct (video_cons_inv laws _ _ _ _ V Hr Hg) as (Gp & Gq & E & Eo & S1 & S2 & S3 & V').
  assert (Ht1 : tracker_state c (f_pre f0)) by (inversion V; subst; cbn; apply ts_meanwhile; auto).
  pose proof (tracker_state_ret _ _ _ _ _ _ _ Ht1 E) as Ht2.
  set (ok' := fun i r => (exists j, ok j r /\ (j = i \/ tc_reid_distance c <> None)) \/
     (exists j, In r (f_dets f0) /\ last_det (f_post f0) j = r /\ (j = i \/ tc_reid_distance c <> None))).
  assert (Hok' : forall i r, known (f_post f0) i -> In r (o_past (s_store (f_post f0) i)) -> ok' i r).
  { clear n f i r Hf Hk Hin. intros i r Hk Hin. destruct Gp as [T C].
    destruct (le_lt_dec i (s_icount (f_pre f0))) as [Hle|Hgt].
    2:{ destruct (new_object laws _ _ _ _ _ _ _ i Hr (conj T C) E) as (Hti & r' & Hr' & NR); [unfold known in Hk; lia|].
        right. exists i. unfold last_det. rewrite (nr_last _ _ _ _ _ _ _ NR). rewrite (nr_past _ _ _ _ _ _ _ NR) in Hin.
        destruct (Nat.ltb 0 (tc_past_len c)); [|destruct Hin]. destruct Hin as [->|[]]. cbn in Hr'. auto. }
    assert (Hks : known (f_pre f0) i) by (unfold known in *; lia).
    assert (Hold : forall k q, known (f_pre f0) k -> In q (o_past (s_store (f_pre f0) k)) -> ok k q).
    { intros k q Hkk Hq. rewrite S1 in Hq. apply Hok; auto. unfold known in *. rewrite S3 in Hkk. auto. }
    destruct (update_summary laws _ _ _ _ _ _ _ Hr T E) as (H1 & H2 & G & news & S & _). cbn [dets_of] in S.
    assert (Hmatched : forall k q d, In (k, q, d) (H1 ++ H2) -> known (f_pre f0) k -> forall r, In r (o_past (s_store (f_post f0) k)) ->
        ok k r \/ (In r (f_dets f0) /\ last_det (f_post f0) k = r)).
    { intros k q d Hkq Hkk r0 Hr0. destruct (su_hit _ _ _ _ _ _ _ _ _ _ S _ _ _ Hkq) as (om & U & o1 & F1 & F2).
      assert (L : last_det (f_post f0) k = q) by (unfold last_det; rewrite F2; cbn; apply (hr_last _ _ _ _ _ F1)).
      rewrite F2 in Hr0. cbn in Hr0. apply (hr_past _ _ _ _ _ F1) in Hr0. rewrite (um_past _ _ U), st_past in Hr0.
      apply in_app_iff in Hr0 as [X|[<-|[]]]; [left; apply Hold; auto|]. right. split; auto. eapply su_dets; eauto. }
    destruct (in_dec Nat.eq_dec i (kept c (f_pre f0))) as [K|K].
    2:{ rewrite (su_gone _ _ _ _ _ _ _ _ _ _ S) in Hin by auto. left. exists i. split; auto. }
    destruct (in_dec Nat.eq_dec i (map h_obj (H1 ++ H2))) as [Hh1|Hh1].
    { destruct (in_hits _ _ Hh1) as (q & d & Hkq). destruct (Hmatched _ _ _ Hkq Hks r Hin) as [X|[X Y]].
      - left. exists i. auto. - right. exists i. auto. }
    destruct (in_dec Nat.eq_dec i (map h_obj G)) as [Hgg|Hgg].
    2:{ assert (Hmiss := su_missed _ _ _ _ _ _ _ _ _ _ S i K ltac:(rewrite map_app, in_app_iff in Hh1; rewrite !in_app_iff; tauto)).
        rewrite (um_past _ _ Hmiss), st_past in Hin. left. exists i. split; auto. }
    destruct (in_hits _ _ Hgg) as (j & d' & Hij).
    assert (Hre : tc_reid_distance c <> None).
    { intros X. apply (su_noreid _ _ _ _ _ _ _ _ _ _ S) in X. subst G. destruct Hij. }
    destruct (su_merge _ _ _ _ _ _ _ _ _ _ S _ _ _ Hij) as (om & U & MR).
    apply (mr_past _ _ _ MR) in Hin. rewrite (um_past _ _ U), st_past in Hin. apply in_app_iff in Hin as [X|X].
    - left. exists i. split; auto.
    - assert (Hj2 : In j (map h_obj H2)) by (apply (su_cand _ _ _ _ _ _ _ _ _ _ S); eapply hits_in; eauto).
      assert (Hjk : known (f_pre f0) j).
      { apply (valid_tracked _ _ T), (kept_tracked c), alive_kept, uninits_alive, (su_obj2 _ _ _ _ _ _ _ _ _ _ S), Hj2. }
      destruct (in_hits _ _ Hj2) as (q & d & Hkq). destruct (Hmatched j q d ltac:(apply in_app_iff; auto) Hjk r X) as [Y|[Y Z]].
      + left. exists j. auto. + right. exists j. auto. }
  destruct n as [|n]; cbn in Hf.
  - injection Hf as <-. destruct (Hok' i r Hk Hin) as [X|(j & X & Y)]; [left; auto|]. right. exists 0, f0, j. auto.
  - destruct (IH (f_post f0) ok' Ht2 V' Hok' n f i r Hf Hk Hin) as [(j & [(j' & X & Y)|(j' & X & Y & Z)] & W)|(m & g & j & Hm & X)].
    + left. exists j'. split; auto. destruct W; auto. subst. auto.
    + right. exists 0, f0, j'. split; [lia|]. split; [reflexivity|]. split; auto. split; auto. destruct W; auto. subst. auto.
    + right. exists (S m), g, j. split; [lia|exact X].
Qed.
End CallTheorems4.

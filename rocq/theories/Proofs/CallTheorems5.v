(** Priority of initialized objects, points, NaN, calls without detections, absolute estimates. *)
From Coq Require Import ZArith Bool Arith String List Lia Permutation Sorting.Sorted.
From Verif Require Import Model.Num Model.Base Model.Matching Model.Filter Model.Tracker
  Spec.MatchingSpec Spec.IdentitySpec Spec.CallSpec Proofs.NumLaws Proofs.MatchingProofs Proofs.TrackerFrame Proofs.Identity
  Proofs.Effect Proofs.CallEffect Proofs.CallProps Proofs.CallTheorems Proofs.CallTheorems2 Proofs.CallTheorems3 Proofs.CallTheorems4.
Import ListNotations.

Section CallTheorems5.
Context {N : Num} {FO : filter_ops N} (laws : NumLaws N).
Notation st := (st FO).
Notation tobj := (tobj FO).
Notation frame := (CallSpec.frame FO).

(* ---- C06 ---- *)
Theorem initialized_served c f dets p ct (s s' : st) out i r d : rnd_ok (tc_rnd c) -> tracker_state c s ->
  tc_distance c = ScalarDistance f -> update c (Some dets) p ct s = (s', Ret out) ->
  let s0 := snd (begin_update c dets ct s) in
  matchable c s i -> o_initializing (s_store s i) = false -> ~ In (last_det s' i) dets ->
  In r dets -> d_label (s_heap s0 r) = obj_label s0 i ->
  f (VDet (s_heap s0 r)) (view_obj s0 i) = Ret d -> dlt (tc_rnd c d) (tc_threshold c) ->
  exists i' d', matchable c s i' /\ o_initializing (s_store s i') = false /\ last_det s' i' = r /\
    f (VDet (s_heap s0 r)) (view_obj s0 i') = Ret d' /\ dle (tc_rnd c d') (tc_rnd c d).
Proof.
  intros Hr Ht Ed E s0 Hm Hi Hl Hin Hlab Hd Hb.
  destruct (initialized_first laws _ _ _ _ _ _ _ Hr Ht E) as (ini & uni & M1 & M2 & P1 & P2 & TP). fold s0 in TP.
  destruct (In_nth _ _ 0 Hin) as (a & Ha & Ea).
  assert (Hini : In i ini) by (apply (tp_ini _ _ _ _ _ _ _ _ _ _ _ TP); auto).
  destruct (In_nth _ _ 0 Hini) as (b & Hb' & Eb).
  assert (HM : get_distances (tc_rnd c) (tc_distance c) s0 ini (map CDet dets) = Ret M1).
  { apply (tp_matrix1 _ _ _ _ _ _ _ _ _ _ _ TP). intros X. subst dets. destruct Hin. }
  rewrite Ed in HM. cbn in HM. apply scalar_entries in HM as [_ HM].
  assert (Hent : forall b' i', nth_error ini b' = Some i' ->
    (if negb (label_eqb (d_label (s_heap s0 r)) (obj_label s0 i')) then Ret DPInf
     else match f (VDet (s_heap s0 r)) (view_obj s0 i') with Ret d => Ret (tc_rnd c d) | Raise e => Raise e end) = Ret (entry M1 a b')).
  { intros b' i' Hb0. specialize (HM a b' (CDet r) i'). apply HM; auto.
    erewrite map_nth_error; [reflexivity|]. rewrite <- Ea. apply nth_error_nth'. auto. }
  assert (Eb' : nth_error ini b = Some i) by (rewrite <- Eb; apply nth_error_nth'; auto).
  pose proof (Hent b i Eb') as Hab. rewrite (proj2 (label_eqb_eq _ _) Hlab), Hd in Hab. cbn in Hab. injection Hab as Hab.
  destruct (tp_match1 _ _ _ _ _ _ _ _ _ _ _ TP) as (_ & Hrg & Hbel & Hst).
  destruct (Hst a b Ha Hb') as [HP|[(b' & HP & Hle)|(a' & HP & Hle)]].
  - rewrite <- Hab. exact Hb.
  - exfalso. apply Hl. rewrite <- Eb, (tp_last1 _ _ _ _ _ _ _ _ _ _ _ TP _ _ HP). apply nth_In. auto.
  - destruct (Hrg _ _ HP) as [_ Hb0]. exists (nth b' ini 0).
    assert (En : nth_error ini b' = Some (nth b' ini 0)) by (apply nth_error_nth'; auto).
    assert (Hin' : In (nth b' ini 0) ini) by (apply nth_In; auto).
    apply (tp_ini _ _ _ _ _ _ _ _ _ _ _ TP) in Hin' as [Hm' Hi'].
    pose proof (Hent _ _ En) as Hx. specialize (Hbel _ _ HP).
    destruct (label_eqb (d_label (s_heap s0 r)) (obj_label s0 (nth b' ini 0))) eqn:El; cbn [negb] in Hx.
    2:{ injection Hx as Hx. rewrite <- Hx in Hbel. unfold dlt in Hbel. destruct (tc_threshold c); discriminate. }
    destruct (f (VDet (s_heap s0 r)) (view_obj s0 (nth b' ini 0))) as [d'|e] eqn:Ef; [|discriminate]. injection Hx as Hx.
    exists d'. repeat split; auto; try apply Hm'.
    + rewrite (tp_last1 _ _ _ _ _ _ _ _ _ _ _ TP _ _ HP). exact Ea.
    + rewrite Hx, Hab. exact Hle.
  - exfalso. apply Hl. rewrite <- Eb, (tp_last1 _ _ _ _ _ _ _ _ _ _ _ TP _ _ HP). apply nth_In. apply Hrg in HP. tauto.
Qed.

(* ---- C28, C31 ---- *)
Theorem update_nothing c p ct (s : st) : NoDup (s_tracked s) ->
  update c (Some []) p ct s = (snd (begin_update c [] ct s), Ret (get_active_objects (snd (begin_update c [] ct s)))) /\
  stepped c [] ct s (snd (begin_update c [] ct s)) /\ ct_heap ct [] s = s_heap s.
Proof.
  intros Hn. destruct (begin_update c [] ct s) as [[al de] s0] eqn:E.
  destruct (begin_update_effect _ _ _ _ _ _ _ Hn E) as (_ & _ & ST). split; [|split; [exact ST|destruct ct; reflexivity]].
  unfold update. destruct ct; rewrite E; unfold associate; cbn; unfold reid_phase; destruct (tc_reid_distance c); cbn; reflexivity.
Qed.

Theorem no_detections c p ct (s : st) : tracker_state c s ->
  exists s', update c (Some []) p ct s = (s', Ret (get_active_objects s')) /\
    s_heap s' = s_heap s /\ s_icount s' = s_icount s /\ s_count s' = s_count s /\ s_gcount s' = s_gcount s /\
    incl (s_tracked s') (s_tracked s) /\
    (forall i, tracked s' i -> s_store s' i = obj_update_ct ct (tracker_step (s_store s i))) /\
    (forall i, known s i -> ~ tracked s' i -> s_store s' i = s_store s i).
Proof.
  intros Ht. apply tracker_state_good in Ht as [T C].
  destruct (update_nothing c p ct s (ti_nodup _ T)) as (E & ST & Eh).
  exists (snd (begin_update c [] ct s)). split; [exact E|]. destruct ST as [A1 A2 A3 A4 A5 A6 A7].
  rewrite A1, A5, A6, A7. split; auto. split; auto. split; auto. split; auto. unfold tracked. rewrite A4.
  split; [|split].
  - intros i. apply kept_tracked.
  - intros i Hi. apply A2. exact Hi.
  - intros i _ Hi. apply A3. exact Hi.
Qed.

Theorem none_is_empty c p (s : st) : update c None p None s = update c (Some []) p None s.
Proof. reflexivity. Qed.
Theorem none_with_ct_raises c p T (s : st) : update c None p (Some T) s = (s, Raise ETypeError).
Proof. reflexivity. Qed.

Theorem none_refuted c p T (s : st) : tracker_state c s ->
  update c None p (Some T) s = (s, Raise ETypeError) /\ exists s' out, update c (Some []) p (Some T) s = (s', Ret out).
Proof. intros Ht. split; [reflexivity|]. destruct (no_detections c p (Some T) s Ht) as (s' & E & _). eauto. Qed.
Theorem step_counters (o : tobj) ct :
  let o' := obj_update_ct ct (tracker_step o) in
  o_hit o' = (o_hit o - 1)%Z /\ o_age o' = (o_age o + 1)%Z /\ o_id o' = o_id o /\ o_last_det o' = o_last_det o /\
  o_initializing o' = o_initializing o /\ o_past o' = o_past o /\ o_filter o' = f_predict FO (o_filter o).
Proof.
  cbv zeta. unfold obj_update_ct, tracker_step. destruct ct; destruct (o_reid o); repeat (split; try reflexivity);
  destruct (o_hit o <=? 0)%Z; reflexivity.
Qed.

(* ---- C30 ---- *)
Theorem constructor_validation rnd by_name (a : targs FO) :
  (forall n e, by_name n = Raise e -> e = EValueError) ->
  let bad_distance := match a_distance a with
                      | DName n => exists e, by_name n = Raise e | DCallable _ => False | DOther => True end in
  let bad_delay := exists v, a_delay a = Some v /\ (v < 0 \/ a_hit_counter_max a <= v)%Z in
  (tracker_init rnd by_name a = Raise EValueError <-> bad_distance \/ (a_past_len a < 0)%Z \/ bad_delay) /\
  (forall e, tracker_init rnd by_name a = Raise e -> e = EValueError) /\
  (forall c, tracker_init rnd by_name a = Ret c ->
     tc_delay c = match a_delay a with Some v => v | None => Z.quot (a_hit_counter_max a) 2 end /\
     tc_hit_counter_max c = a_hit_counter_max a /\ tc_threshold c = a_threshold a /\ tc_pointwise_max c = a_pointwise_max a /\
     tc_det_thr c = a_det_thr a /\ Z.of_nat (tc_past_len c) = a_past_len a /\ tc_reid_distance c = a_reid_distance a /\
     tc_reid_threshold c = a_reid_threshold a /\ tc_reid_max c = a_reid_max a /\
     match a_distance a with DName n => by_name n = Ret (tc_distance c) | DCallable f => tc_distance c = ScalarDistance f | DOther => False end).
Proof.
  intros Hn. cbv zeta. unfold tracker_init.
  set (D := match a_distance a with DName n => by_name n | DCallable f => Ret (ScalarDistance f) | DOther => Raise EValueError end).
  assert (HD : (exists e, D = Raise e) <-> match a_distance a with
                      | DName n => exists e, by_name n = Raise e | DCallable _ => False | DOther => True end).
  { unfold D. destruct (a_distance a); split; try tauto; intros; try (destruct H; discriminate); eauto. }
  assert (HDe : forall e, D = Raise e -> e = EValueError).
  { unfold D. intros e. destruct (a_distance a); intros X; try discriminate; [eauto|injection X as <-; reflexivity]. }
  assert (HDr : forall x, D = Ret x -> match a_distance a with DName n => by_name n = Ret x | DCallable f => x = ScalarDistance f | DOther => False end).
  { unfold D. intros x. destruct (a_distance a); intros X; try discriminate; auto. injection X as <-. reflexivity. }
  set (L := match a_delay a with
           | None => Ret (Z.quot (a_hit_counter_max a) 2)
           | Some v => if ((v <? 0) || (a_hit_counter_max a <=? v))%Z then Raise EValueError else Ret v end).
  assert (HL : match L with Raise e => e = EValueError /\ exists v, a_delay a = Some v /\ (v < 0 \/ a_hit_counter_max a <= v)%Z
               | Ret v => v = match a_delay a with Some v => v | None => Z.quot (a_hit_counter_max a) 2 end /\
                          ~ exists v, a_delay a = Some v /\ (v < 0 \/ a_hit_counter_max a <= v)%Z end).
  { unfold L. destruct (a_delay a) as [v|]; [|split; auto; intros (w & X & _); discriminate].
    destruct (Z.ltb_spec v 0); cbn; [split; eauto|]. destruct (Z.leb_spec (a_hit_counter_max a) v); [split; eauto|].
    split; auto. intros (w & X & Y). injection X as <-. lia. }
  destruct D as [dd|e] eqn:ED.
  2:{ pose proof (HDe e eq_refl) as ->. split; [|split].
      - split; auto. intros _. left. apply HD. eauto.
      - intros e X. injection X as <-. auto.
      - intros c X. discriminate. }
  destruct (Z.ltb_spec (a_past_len a) 0) as [Hp|Hp].
  { split; [|split].
    - split; auto.
    - intros e X. injection X as <-. auto.
    - intros c X. discriminate. }
  destruct L as [v|e] eqn:EL.
  - destruct HL as [-> HL]. split; [|split].
    + split; [discriminate|]. intros [X|[X|X]]; [|lia|contradiction]. apply HD in X as [e X]. discriminate.
    + intros e X. discriminate.
    + intros c X. injection X as <-. cbn. repeat split; auto; [lia|exact (HDr _ eq_refl)].
  - destruct HL as [-> HL]. split; [|split].
    + split; auto.
    + intros e X. injection X as <-. auto.
    + intros c X. discriminate.
Qed.

End CallTheorems5.

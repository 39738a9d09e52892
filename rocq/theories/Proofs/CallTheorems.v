(** Theorems about single calls and sequences of calls of one tracker. *)
From Coq Require Import ZArith Bool Arith String List Lia Permutation Sorting.Sorted.
From Verif Require Import Model.Num Model.Base Model.Matching Model.Filter Model.Tracker
  Spec.MatchingSpec Spec.IdentitySpec Spec.CallSpec Proofs.NumLaws Proofs.MatchingProofs Proofs.TrackerFrame Proofs.Identity
  Proofs.Effect Proofs.CallEffect Proofs.CallProps.
Import ListNotations.

Section CallTheorems.
Context {N : Num} {FO : filter_ops N} (laws : NumLaws N).
Notation st := (st FO).
Notation tobj := (tobj FO).
Notation frame := (CallSpec.frame FO).

(* ---- projections through upto_min and the step ---- *)
Lemma um_hit (o o' : tobj) : upto_min o o' -> o_hit o' = o_hit o. Proof. intros [m ->]. reflexivity. Qed.
Lemma um_reid (o o' : tobj) : upto_min o o' -> o_reid o' = o_reid o. Proof. intros [m ->]. reflexivity. Qed.
Lemma um_last (o o' : tobj) : upto_min o o' -> o_last_det o' = o_last_det o. Proof. intros [m ->]. reflexivity. Qed.
Lemma um_age (o o' : tobj) : upto_min o o' -> o_age o' = o_age o. Proof. intros [m ->]. reflexivity. Qed.
Lemma um_init (o o' : tobj) : upto_min o o' -> o_initializing o' = o_initializing o. Proof. intros [m ->]. reflexivity. Qed.
Lemma um_conf (o o' : tobj) : upto_min o o' -> o_conf o' = o_conf o. Proof. intros [m ->]. reflexivity. Qed.
Lemma um_points (o o' : tobj) : upto_min o o' -> o_point_hits o' = o_point_hits o. Proof. intros [m ->]. reflexivity. Qed.
Lemma um_past (o o' : tobj) : upto_min o o' -> o_past o' = o_past o. Proof. intros [m ->]. reflexivity. Qed.

Lemma st_hit ct (o : tobj) : o_hit (obj_update_ct ct (tracker_step o)) = (o_hit o - 1)%Z. Proof. destruct ct; reflexivity. Qed.
Lemma st_reid ct (o : tobj) : o_reid (obj_update_ct ct (tracker_step o)) =
  match o_reid o with None => if (o_hit o <=? 0)%Z then oc_reid_max (o_conf o) else None | Some r => Some (r - 1)%Z end.
Proof. destruct ct; reflexivity. Qed.
Lemma st_last ct (o : tobj) : o_last_det (obj_update_ct ct (tracker_step o)) = o_last_det o. Proof. destruct ct; reflexivity. Qed.
Lemma st_age ct (o : tobj) : o_age (obj_update_ct ct (tracker_step o)) = (o_age o + 1)%Z. Proof. destruct ct; reflexivity. Qed.
Lemma st_init ct (o : tobj) : o_initializing (obj_update_ct ct (tracker_step o)) = o_initializing o. Proof. destruct ct; reflexivity. Qed.
Lemma st_conf ct (o : tobj) : o_conf (obj_update_ct ct (tracker_step o)) = o_conf o. Proof. destruct ct; reflexivity. Qed.
Lemma st_points ct (o : tobj) : o_point_hits (obj_update_ct ct (tracker_step o)) = map (fun c => c - 1)%Z (o_point_hits o).
Proof. destruct ct; reflexivity. Qed.
Lemma st_past ct (o : tobj) : o_past (obj_update_ct ct (tracker_step o)) = o_past o. Proof. destruct ct; reflexivity. Qed.

Lemma kept_iff c (s : st) i : In i (kept c s) <-> tracked s i /\
  match tc_reid_max c with
  | None => (0 <= hit_counter s i)%Z
  | Some _ => match o_reid (s_store s i) with None => True | Some r => (0 <= r)%Z end
  end.
Proof.
  unfold kept, tracked. rewrite filter_In. apply and_iff_compat_l.
  destruct (tc_reid_max c); [unfold reid_hit_counter_is_positive; destruct (o_reid _)|unfold hit_counter_is_positive].
  - rewrite Z.leb_le. reflexivity.
  - split; auto.
  - rewrite Z.leb_le. reflexivity.
Qed.
Lemma alive_iff c (s : st) i : In i (alive c s) <-> In i (kept c s) /\ (0 <= hit_counter s i)%Z.
Proof. unfold alive. rewrite filter_In. unfold hit_counter_is_positive, hit_counter. rewrite Z.leb_le. reflexivity. Qed.

Lemma active_iff (s : st) i : In i (get_active_objects s) <->
  tracked s i /\ o_initializing (s_store s i) = false /\ (0 <= hit_counter s i)%Z.
Proof.
  unfold get_active_objects, is_active, tracked, hit_counter, hit_counter_is_positive.
  rewrite filter_In, andb_true_iff, negb_true_iff, Z.leb_le. tauto.
Qed.

(* ---- C05 ---- *)
Theorem update_accounted c dets p ct (s s' : st) out : rnd_ok (tc_rnd c) -> tracker_state c s ->
  update c (Some dets) p ct s = (s', Ret out) ->
  exists matched created, accounted dets s s' matched created.
Proof.
  intros Hr Ht E. apply tracker_state_good in Ht as [T C].
  destruct (update_summary laws _ _ _ _ _ _ _ Hr T E) as (H1 & H2 & G & news & S & _). cbn [dets_of] in S.
  exists (map (fun x => (h_obj x, h_det x)) (H1 ++ H2)), news.
  assert (Hlast : forall i r d, In (i, r, d) (H1 ++ H2) -> last_det s' i = r).
  { intros i r d Hin. destruct (su_hit _ _ _ _ _ _ _ _ _ _ S _ _ _ Hin) as (om & A & o1 & B & Eo).
    unfold last_det. rewrite Eo. cbn. apply (hr_last _ _ _ _ _ B). }
  assert (Htrk : forall i, In i (map h_obj (H1 ++ H2)) -> In i (kept c s)).
  { intros i. rewrite map_app, in_app_iff. intros [X|X].
    - apply alive_kept, inits_alive. eapply (su_obj1 _ _ _ _ _ _ _ _ _ _ S); auto.
    - apply alive_kept, uninits_alive. eapply (su_obj2 _ _ _ _ _ _ _ _ _ _ S); auto. }
  constructor.
  - rewrite map_map. cbn. rewrite map_app, <- app_assoc. apply (su_perm _ _ _ _ _ _ _ _ _ _ S).
  - rewrite map_map. cbn. rewrite map_app. pose proof (su_nodup _ _ _ _ _ _ _ _ _ _ S) as Hn.
    rewrite app_assoc in Hn. clear -Hn. induction (map h_obj H1 ++ map h_obj H2); [constructor|].
    cbn in Hn. inversion Hn as [|? ? A B]; subst. constructor; [intros X; apply A, in_app_iff; auto|auto].
  - intros i r Hin. apply in_map_iff in Hin as ([[i' r'] d] & Eq & Hin). cbn in Eq. injection Eq as -> ->.
    split; [|eapply Hlast; eauto]. apply (kept_tracked c), Htrk. eapply hits_in; eauto.
  - intros k r Hk i. subst i. assert (Hl : k < List.length news) by (apply nth_error_Some; congruence).
    pose proof (su_new _ _ _ _ _ _ _ _ _ _ S k Hl) as Hn. rewrite (nth_error_nth _ _ _ Hk) in Hn.
    split; [|split; [apply (nr_last _ _ _ _ _ _ _ Hn)|apply (nr_age _ _ _ _ _ _ _ Hn)]].
    unfold tracked. rewrite (su_tracked _ _ _ _ _ _ _ _ _ _ S), in_app_iff, in_seq. right. lia.
  - apply (su_icount _ _ _ _ _ _ _ _ _ _ S).
  - intros i. unfold tracked. rewrite (su_tracked _ _ _ _ _ _ _ _ _ _ S), in_app_iff, in_remove_all, in_seq.
    rewrite (su_icount _ _ _ _ _ _ _ _ _ _ S). intros [[A _]|A]; [left; apply kept_tracked in A; auto|right; lia].
  - intros i Hi Hn Hd. rewrite map_map in Hn. cbn in Hn.
    destruct (in_dec Nat.eq_dec i (kept c s)) as [Hk|Hk].
    2:{ exfalso. apply Hd. unfold last_det. rewrite (su_gone _ _ _ _ _ _ _ _ _ _ S); auto. apply valid_tracked; auto. }
    destruct (in_dec Nat.eq_dec i (map h_obj G)) as [Hg|Hg].
    2:{ exfalso. apply Hd. unfold last_det. rewrite (um_last _ _ (su_missed _ _ _ _ _ _ _ _ _ _ S i Hk ltac:(rewrite map_app, in_app_iff in Hn; rewrite !in_app_iff; tauto))), st_last. reflexivity. }
    destruct (in_hits _ _ Hg) as (j & d' & Hin).
    destruct (su_merge _ _ _ _ _ _ _ _ _ _ S _ _ _ Hin) as (om' & U & MR).
    assert (Hjg : In j (map h_det G)) by (eapply hits_in; eauto).
    assert (Hj2 : In j (map h_obj H2)) by (apply (su_cand _ _ _ _ _ _ _ _ _ _ S); auto).
    exists j. split.
    + destruct (in_hits _ _ Hj2) as (r & d & Hin2). assert (Hin3 : In (j, r, d) (H1 ++ H2)) by (apply in_app_iff; auto).
      apply in_map_iff. exists (j, r, d). split; auto. cbn. f_equal.
      unfold last_det at 1. rewrite (mr_last _ _ _ MR). symmetry. exact (Hlast _ _ _ Hin3).
    + intros X. assert (Hjt : tracked s j).
      { apply (kept_tracked c), Htrk. rewrite map_app, in_app_iff. auto. }
      apply (tracked_old _ _ _ _ _ _ _ _ _ _ _ T S (valid_tracked _ _ T Hjt)) in X. tauto.
Qed.

(* ---- C13 ---- *)
Theorem update_returns_active c dets p ct (s s' : st) out : rnd_ok (tc_rnd c) -> tracker_state c s ->
  update c dets p ct s = (s', Ret out) ->
  (forall i, In i out <-> tracked s' i /\ o_initializing (s_store s' i) = false /\ (0 <= hit_counter s' i)%Z) /\
  NoDup out /\ StronglySorted lt out /\ get_active_objects s' = out /\ current_object_count s' = List.length out.
Proof.
  intros Hr Ht E. pose proof (tracker_state_good _ _ (tracker_state_ret _ _ _ _ _ _ _ Ht E)) as [T' C'].
  apply tracker_state_good in Ht as [T C].
  destruct (update_summary laws _ _ _ _ _ _ _ Hr T E) as (H1 & H2 & G & news & S & ->).
  split; [intros; apply active_iff|]. split; [apply NoDup_filter, (ti_nodup _ T')|].
  split; [apply filter_sorted, (ti_sorted _ T')|]. split; reflexivity.
Qed.

(* ---- one call, one object ---- *)
Lemma new_object c dets p ct (s s' : st) out i : rnd_ok (tc_rnd c) -> good c s ->
  update c dets p ct s = (s', Ret out) -> s_icount s < i <= s_icount s' ->
  tracked s' i /\ exists r, In r (dets_of dets) /\ new_rel c (ct_heap ct (dets_of dets) s) r p ct i (s_store s' i).
Proof.
  intros Hr [T C] E Hi. destruct (update_summary laws _ _ _ _ _ _ _ Hr T E) as (H1 & H2 & G & news & S & _).
  rewrite (su_icount _ _ _ _ _ _ _ _ _ _ S) in Hi.
  pose proof (su_new _ _ _ _ _ _ _ _ _ _ S (i - Datatypes.S (s_icount s)) ltac:(lia)) as Hn.
  replace (Datatypes.S (s_icount s) + (i - Datatypes.S (s_icount s))) with i in Hn by lia. split.
  - unfold tracked. rewrite (su_tracked _ _ _ _ _ _ _ _ _ _ S), in_app_iff, in_seq. right. lia.
  - eexists. split; [|exact Hn]. eapply Permutation_in; [symmetry; apply (su_perm _ _ _ _ _ _ _ _ _ _ S)|].
    rewrite !in_app_iff. right; right. apply nth_In. lia.
Qed.

Lemma tracked_pre c dets p ct (s s' : st) out i : rnd_ok (tc_rnd c) -> good c s ->
  update c dets p ct s = (s', Ret out) -> valid s i -> tracked s' i -> In i (kept c s).
Proof.
  intros Hr [T C] E Hv Hi. destruct (update_summary laws _ _ _ _ _ _ _ Hr T E) as (H1 & H2 & G & news & S & _).
  apply (tracked_old _ _ _ _ _ _ _ _ _ _ _ T S Hv) in Hi. tauto.
Qed.
Lemma update_icount c dets p ct (s s' : st) out : good c s ->
  update c dets p ct s = (s', Ret out) -> s_icount s <= s_icount s'.
Proof.
  intros [T C] E. pose proof (update_prims c dets p ct s (ti_valid _ T)) as P. rewrite E in P. apply prims_icount in P. exact P.
Qed.

Lemma fate_unseen c dets p ct (s s' : st) i : fate c dets p ct s s' i -> ~ In (last_det s' i) dets ->
  (~ In i (kept c s) /\ ~ tracked s' i /\ s_store s' i = s_store s i) \/
  (In i (kept c s) /\ tracked s' i /\ upto_min (obj_update_ct ct (tracker_step (s_store s i))) (s_store s' i)).
Proof.
  intros F Hns. destruct F as [A B D|A B D|r d om A B D F G0 G1|j om A B R0 I0 D F F' L G0 G1]; auto.
  - exfalso. destruct F as (o1 & F1 & F2). apply Hns. unfold last_det. rewrite F2. cbn. rewrite (hr_last _ _ _ _ _ F1). auto.
  - exfalso. apply Hns. unfold last_det in *. rewrite (mr_last _ _ _ G1). auto.
Qed.

(* ---- C14 ---- *)
Theorem hit_counter_law c dets p ct (s s' : st) out i : rnd_ok (tc_rnd c) -> tracker_state c s ->
  update c (Some dets) p ct s = (s', Ret out) -> tracked s i -> tracked s' i ->
  o_age (s_store s' i) = (o_age (s_store s i) + 1)%Z /\
  ((In (last_det s' i) dets /\ hit_counter s' i = Z.min (hit_counter s i - 1 + 2 * p) (tc_hit_counter_max c))
   \/ (last_det s' i = last_det s i /\ hit_counter s' i = hit_counter s i - 1)%Z
   \/ (tc_reid_distance c <> None /\ hit_counter s' i = (2 * oc_initial_period (o_conf (s_store s i)))%Z /\
       exists j, tracked s j /\ ~ tracked s' j /\ last_det s' i = last_det s' j /\ In (last_det s' j) dets)) /\
  (~ In (last_det s' i) dets -> hit_counter s' i = hit_counter s i - 1)%Z /\
  (tc_reid_distance c = None -> ~ In (last_det s i) dets -> In (last_det s' i) dets ->
     hit_counter s' i = Z.min (hit_counter s i - 1 + 2 * p) (tc_hit_counter_max c)).
Proof.
  intros Hr Ht E Hi Hi'. apply tracker_state_good in Ht. assert (Hv := valid_tracked _ _ (proj1 Ht) Hi).
  pose proof (proj2 Ht i Hv) as CO. pose proof (update_fate laws _ _ _ _ _ _ _ i Hr Ht E Hi) as F. cbn [dets_of] in F.
  unfold hit_counter, last_det in *.
  destruct F as [A B D|A B D|r d om A B D F G0 G1|j om A B R0 I0 D F F' L G0 G1].
  - contradiction.
  - rewrite (um_hit _ _ D), (um_age _ _ D), (um_last _ _ D), st_hit, st_age, st_last.
    split; [reflexivity|]. split; [right; left; auto|]. split; [auto|]. intros _ X Y. contradiction.
  - destruct F as (o1 & F1 & F2). rewrite F2. cbn. rewrite (hr_age _ _ _ _ _ F1), (um_age _ _ D), st_age.
    rewrite (hr_last _ _ _ _ _ F1), (hr_hit _ _ _ _ _ F1), (um_hit _ _ D), st_hit, (um_conf _ _ D), st_conf, (co_hcm _ _ CO).
    split; [reflexivity|]. split; [left; auto|]. split; [intros X; contradiction|auto].
  - rewrite (mr_age _ _ _ G1), (mr_hit _ _ _ G1), (mr_last _ _ _ G1), (um_age _ _ G0), (um_conf _ _ G0), st_age, st_conf.
    split; [reflexivity|]. split; [right; right; split; [exact R0|split; [reflexivity|exists j; auto]]|].
    split; [intros X; contradiction|intros X; contradiction].
Qed.

(* ---- sequences of calls ---- *)
Lemma video_cons_inv c (s : st) f fs : video c s (f :: fs) -> rnd_ok (tc_rnd c) -> good c s ->
  good c (f_pre f) /\ good c (f_post f) /\ update c (Some (f_dets f)) (f_period f) (f_ct f) (f_pre f) = (f_post f, Ret (f_out f)) /\
  f_out f = get_active_objects (f_post f) /\
  s_store (f_pre f) = s_store s /\ s_tracked (f_pre f) = s_tracked s /\ s_icount (f_pre f) = s_icount s /\ video c (f_post f) fs.
Proof.
  intros V Hr Hg. inversion V as [|s0 heap g dets p ct s' out fs0 H1 H2 H3]; subst. cbn in *.
  assert (G : good c (meanwhile s heap g)) by (apply good_meanwhile; auto).
  split; [exact G|]. split.
  { pose proof (good_update c _ (Some dets) p ct G) as G'. rewrite H2 in G'. exact G'. }
  split; [exact H2|]. split; [|repeat split; auto].
  destruct (update_summary laws _ _ _ _ _ _ _ Hr (proj1 G) H2) as (? & ? & ? & ? & _ & ->). reflexivity.
Qed.

(** An object that is not tracked any more never comes back. *)
Lemma gone_stays c (s : st) fs i : rnd_ok (tc_rnd c) -> good c s -> video c s fs -> valid s i -> ~ tracked s i ->
  forall n f, nth_error fs n = Some f -> ~ tracked (f_post f) i.
Proof.
  intros Hr. revert s. induction fs as [|f0 fs IH]; intros s Hg V Hv Hn n f Hf; [destruct n; discriminate|].
  destruct (video_cons_inv _ _ _ _ V Hr Hg) as (Gp & Gq & E & _ & S1 & S2 & S3 & V').
  assert (Hv1 : valid (f_pre f0) i) by (unfold valid; rewrite S3; exact Hv).
  assert (Hn1 : ~ tracked (f_post f0) i).
  { intros X. apply (tracked_pre _ _ _ _ _ _ _ _ Hr Gp E Hv1) in X. apply kept_tracked in X.
    apply Hn. unfold tracked. rewrite <- S2. exact X. }
  destruct n as [|n]; cbn in Hf; [injection Hf as <-; exact Hn1|].
  apply update_icount in E; auto. eapply (IH (f_post f0)); eauto. unfold valid in *. lia.
Qed.

(* ---- C16 ---- *)
Definition fading (s : st) i : Prop := valid s i /\ (tracked s i -> (hit_counter s i < 0)%Z).

Lemma fading_step c (s s' : st) dets p ct out i : rnd_ok (tc_rnd c) -> good c s ->
  update c (Some dets) p ct s = (s', Ret out) -> ~ In (last_det s' i) dets -> fading s i -> fading s' i.
Proof.
  intros Hr Hg E Hns [Hv Hf]. pose proof (update_icount _ _ _ _ _ _ _ Hg E) as Hic.
  split; [unfold valid in *; lia|]. intros Hi'.
  assert (Hk := tracked_pre _ _ _ _ _ _ _ _ Hr Hg E Hv Hi').
  assert (Hi := kept_tracked _ _ _ Hk).
  destruct (fate_unseen _ _ _ _ _ _ _ (update_fate laws _ _ _ _ _ _ _ i Hr Hg E Hi) Hns) as [(A & B & D)|(A & B & D)]; [contradiction|].
  unfold hit_counter in *. rewrite (um_hit _ _ D), st_hit. specialize (Hf Hi). lia.
Qed.

Theorem lost_object_returned c (s : st) fs i h : rnd_ok (tc_rnd c) -> tracker_state c s ->
  In i (get_active_objects s) -> hit_counter s i = Z.of_nat h ->
  (tc_reid_max c = None \/ o_reid (s_store s i) = None) ->
  video c s fs -> (forall f, In f fs -> ~ seen f i) ->
  forall n f, nth_error fs n = Some f -> (In i (f_out f) <-> n < h).
Proof.
  intros Hr Ht. apply tracker_state_good in Ht.
  revert s h Ht. induction fs as [|f0 fs IH]; intros s h Hg Ha Hh Hre V Hns n f Hf; [destruct n; discriminate|].
  destruct (video_cons_inv _ _ _ _ V Hr Hg) as (Gp & Gq & E & Eo & S1 & S2 & S3 & V').
  apply active_iff in Ha as (Hi & Hini & Hpos).
  assert (Hi1 : tracked (f_pre f0) i) by (unfold tracked; rewrite S2; exact Hi).
  assert (Hh1 : hit_counter (f_pre f0) i = Z.of_nat h) by (unfold hit_counter; rewrite S1; exact Hh).
  assert (Hre1 : tc_reid_max c = None \/ o_reid (s_store (f_pre f0) i) = None) by (rewrite S1; exact Hre).
  assert (Hini1 : o_initializing (s_store (f_pre f0) i) = false) by (rewrite S1; exact Hini).
  assert (Hk : In i (kept c (f_pre f0))).
  { apply kept_iff. split; auto. destruct Hre1 as [Hx|Hx]; rewrite Hx; auto.
    - lia. - destruct (tc_reid_max c); [auto|lia]. }
  assert (Hns0 : ~ In (last_det (f_post f0) i) (f_dets f0)) by (apply Hns; left; reflexivity).
  destruct (fate_unseen _ _ _ _ _ _ _ (update_fate laws _ _ _ _ _ _ _ i Hr Gp E Hi1) Hns0) as [(A & B & D)|(A & B & D)]; [contradiction|].
  assert (Hh2 : hit_counter (f_post f0) i = (Z.of_nat h - 1)%Z).
  { unfold hit_counter in *. rewrite (um_hit _ _ D), st_hit. lia. }
  assert (Hini2 : o_initializing (s_store (f_post f0) i) = false) by (rewrite (um_init _ _ D), st_init; auto).
  assert (Hv : valid (f_post f0) i) by (apply valid_tracked; [apply Gq|exact B]).
  destruct h as [|h].
  - (* it fades *)
    assert (Hfd : fading (f_post f0) i) by (split; auto; intros _; lia).
    assert (Hall : forall n f, nth_error (f0 :: fs) n = Some f -> ~ In i (f_out f)).
    { clear IH Hf. intros m f1 Hf1. destruct m as [|m]; cbn in Hf1.
      - injection Hf1 as <-. rewrite Eo, active_iff. intros (_ & _ & X). lia.
      - clear -laws Hr Gq V' Hns Hfd Hf1.
        revert Gq V' Hfd m Hf1. generalize (f_post f0) as t.
        assert (Hns' : forall f, In f fs -> ~ seen f i) by (intros f Hf; apply Hns; right; exact Hf). clear Hns.
        induction fs as [|f2 fs IH]; intros t Gt Vt Hfd m Hm; [destruct m; discriminate|].
        destruct (video_cons_inv _ _ _ _ Vt Hr Gt) as (Gp2 & Gq2 & E2 & Eo2 & T1 & T2 & T3 & Vt').
        assert (Hfd2 : fading (f_pre f2) i).
        { destruct Hfd as [X Y]. split; [unfold valid in *; rewrite T3; exact X|]. unfold tracked, hit_counter in *. rewrite T1, T2. exact Y. }
        assert (Hfd3 : fading (f_post f2) i).
        { eapply (fading_step _ _ _ _ _ _ _ _ Hr Gp2 E2); [apply Hns'; left; reflexivity|exact Hfd2]. }
        destruct m as [|m]; cbn in Hm.
        + injection Hm as <-. rewrite Eo2, active_iff. intros (X & _ & Y). apply Hfd3 in X. lia.
        + eapply IH; eauto. intros f Hf. apply Hns'. right; exact Hf. }
    split; [intros X; exfalso; eapply Hall; eauto|lia].
  - destruct n as [|n]; cbn in Hf.
    + injection Hf as <-. rewrite Eo, active_iff. split; [lia|]. intros _. repeat split; auto. lia.
    + rewrite (IH (f_post f0) h) with (n := n); auto; [lia| | | |].
      * apply active_iff. repeat split; auto. lia.
      * lia.
      * destruct Hre1 as [Hx|Hx]; [left; exact Hx|]. right. rewrite (um_reid _ _ D), st_reid, Hx.
        unfold hit_counter in Hh1. rewrite Hh1. destruct (Z.leb_spec (Z.of_nat (S h)) 0); [lia|reflexivity].
      * intros f1 Hf1. apply Hns. right; exact Hf1.
Qed.
End CallTheorems.

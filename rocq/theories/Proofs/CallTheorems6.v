(** Points, NaN, absolute estimates. *)
From Coq Require Import ZArith Bool Arith String List Lia Permutation Sorting.Sorted.
From Verif Require Import Model.Num Model.Base Model.Matching Model.Filter Model.Tracker
  Spec.MatchingSpec Spec.IdentitySpec Spec.CallSpec Proofs.NumLaws Proofs.MatchingProofs Proofs.TrackerFrame Proofs.Identity
  Proofs.Effect Proofs.CallEffect Proofs.CallProps Proofs.CallTheorems Proofs.CallTheorems2 Proofs.CallTheorems3 Proofs.CallTheorems4.
Import ListNotations.

Section CallTheorems6.
Context {N : Num} {FO : filter_ops N} (laws : NumLaws N).
Notation st := (st FO).
Notation tobj := (tobj FO).
Notation frame := (CallSpec.frame FO).

(* ---- C24 ---- *)
Lemma nth_error_map2 {A B C} (f : A -> B -> C) : forall a b k x y, nth_error a k = Some x -> nth_error b k = Some y ->
  nth_error (map2 f a b) k = Some (f x y).
Proof.
  unfold map2. induction a as [|a0 a IH]; intros [|b0 b] [|k] x y Hx Hy; cbn in *; try discriminate.
  - congruence.
  - apply IH; auto.
Qed.

Definition clip (pw v : Z) : Z := Z.max 0 (Z.min pw v).
Lemma point_hits_nth p pw mask hits k (m : bool) n : nth_error mask k = Some m -> nth_error hits k = Some n ->
  nth_error (point_hits_update p pw mask hits) k = Some (clip pw (if m then n + 2 * p else n)%Z).
Proof.
  intros Hm Hn. unfold point_hits_update.
  erewrite map_nth_error; [|erewrite map_nth_error; [reflexivity|]; apply nth_error_map2; eauto].
  f_equal. unfold clip. destruct m; cbv beta zeta.
  - destruct (Z.leb_spec pw (n + 2 * p)); [destruct (Z.ltb_spec pw 0)|destruct (Z.ltb_spec (n + 2 * p) 0)]; lia.
  - destruct (Z.leb_spec pw n); [destruct (Z.ltb_spec pw 0)|destruct (Z.ltb_spec n 0)]; lia.
Qed.
Lemma point_hits_in p pw mask hits x : In x (point_hits_update p pw mask hits) -> (0 <= x <= Z.max 0 pw)%Z.
Proof.
  unfold point_hits_update. intros H. apply in_map_iff in H as (y & <- & H). apply in_map_iff in H as (z & <- & H).
  destruct (Z.leb_spec pw z); [destruct (Z.ltb_spec pw 0)|destruct (Z.ltb_spec z 0)]; lia.
Qed.

Lemma above_dec thr (d : detection N) k : {above thr d k} + {~ above thr d k}.
Proof.
  unfold above. destruct (d_scores d) as [sc|]; [|left; auto]. destruct (nth_error sc k) as [x|] eqn:E.
  - destruct (nltb thr x) eqn:L; [left; eauto|]. right. intros (y & Y & Z). injection Y as <-. congruence.
  - right. intros (y & Y & _). discriminate.
Qed.

Lemma hit_point c d r p (o o' : tobj) k n : hit_rel d r p o o' -> conf_ok c o -> nth_error (o_point_hits o) k = Some n ->
  nth_error (o_point_hits o') k =
   Some (clip (Z.max (tc_pointwise_max c) (oc_initial_period (o_conf o))) (if above_dec (tc_det_thr c) d k then n + 2 * p else n)%Z).
Proof.
  intros H CO Hn. rewrite (hr_points _ _ _ _ _ H), (co_pw _ _ CO), (co_thr _ _ CO).
  pose proof (hr_points_len _ _ _ _ _ H) as L.
  assert (Hk : k < List.length (o_point_hits o)) by (apply nth_error_Some; congruence).
  destruct (above_dec (tc_det_thr c) d k) as [A|A]; unfold above in A; unfold over_threshold; destruct (d_scores d) as [sc|] eqn:Es.
  - destruct A as (x & A & B). apply (point_hits_nth p _ _ _ _ true); auto. rewrite (map_nth_error _ _ _ A). congruence.
  - apply (point_hits_nth p _ _ _ _ true); auto. apply nth_error_repeat. auto.
  - pose proof (hr_mask_len _ _ _ _ _ H) as ML. unfold over_threshold in ML. rewrite Es, map_length in ML.
    destruct (nth_error sc k) as [x|] eqn:Ex.
    + apply (point_hits_nth p _ _ _ _ false); auto. rewrite (map_nth_error _ _ _ Ex). f_equal.
      destruct (nltb (tc_det_thr c) x) eqn:E; auto. exfalso. apply A. eauto.
    + apply nth_error_None in Ex. lia.
  - exfalso. apply A. exact I.
Qed.

Lemma st_point ct (o : tobj) k n : nth_error (o_point_hits o) k = Some n ->
  nth_error (o_point_hits (obj_update_ct ct (tracker_step o))) k = Some (n - 1)%Z.
Proof. intros H. rewrite st_points. exact (map_nth_error _ _ _ H). Qed.

Lemma ct_heap_scores ct ds (s : st) r : d_scores (ct_heap ct ds s r) = d_scores (s_heap s r).
Proof.
  unfold ct_heap. destruct ct as [T|]; auto. revert s. induction ds as [|q ds IH]; intros s; cbn; auto.
  rewrite IH. cbn. unfold upd. destruct (Nat.eqb_spec r q); subst; auto.
Qed.
Lemma above_scores thr (d d' : detection N) k : d_scores d = d_scores d' -> above thr d k <-> above thr d' k.
Proof. unfold above. intros ->. reflexivity. Qed.

Theorem point_counter_law c dets p ct (s s' : st) out i k n : rnd_ok (tc_rnd c) -> tracker_state c s ->
  tc_reid_distance c = None -> update c (Some dets) p ct s = (s', Ret out) -> tracked s i -> tracked s' i ->
  point_counter s i k = Some n ->
  let d := s_heap s (last_det s' i) in
  let pw := Z.max (tc_pointwise_max c) (oc_initial_period (o_conf (s_store s i))) in
  (~ In (last_det s' i) dets -> point_counter s' i k = Some (n - 1)%Z) /\
  (In (last_det s' i) dets -> ~ In (last_det s i) dets -> above (tc_det_thr c) d k ->
     point_counter s' i k = Some (clip pw (n - 1 + 2 * p))) /\
  (In (last_det s' i) dets -> ~ In (last_det s i) dets -> ~ above (tc_det_thr c) d k ->
     point_counter s' i k = Some (clip pw (n - 1))) /\
  (~ (In (last_det s' i) dets /\ above (tc_det_thr c) d k) ->
     exists n', point_counter s' i k = Some n' /\ (n' <= Z.max 0 (n - 1))%Z).
Proof.
  intros Hr Ht Hre E Hi Hi' Hn d pw. apply tracker_state_good in Ht as [T C].
  pose proof (update_fate laws _ _ _ _ _ _ _ i Hr (conj T C) E Hi) as F. cbn [dets_of] in F.
  unfold point_counter in *.
  pose proof (C i (valid_tracked _ _ T Hi)) as CO.
  destruct F as [A B D|A B D|r dist om A B D F G0 G1|j om A B R0 I0 D F F' L G0 G1]; [contradiction| | |contradiction].
  - assert (X : nth_error (o_point_hits (s_store s' i)) k = Some (n - 1)%Z) by (rewrite (um_points _ _ D); apply st_point; auto).
    assert (Y : last_det s' i = last_det s i) by (unfold last_det; rewrite (um_last _ _ D), st_last; auto).
    split; [auto|]. split; [intros; rewrite <- Y in *; contradiction|]. split; [intros; rewrite <- Y in *; contradiction|].
    intros _. exists (n - 1)%Z. split; auto. lia.
  - destruct F as (o1 & F1 & F2).
    assert (Y : last_det s' i = r) by (unfold last_det; rewrite F2; cbn; apply (hr_last _ _ _ _ _ F1)).
    assert (CO' : conf_ok c om) by (eapply conf_ok_conf; [|exact CO]; rewrite (um_conf _ _ D), st_conf; auto).
    assert (X : nth_error (o_point_hits om) k = Some (n - 1)%Z) by (rewrite (um_points _ _ D); apply st_point; auto).
    pose proof (hit_point c _ _ _ _ _ _ _ F1 CO' X) as H. rewrite (um_conf _ _ D), st_conf in H. fold pw in H.
    assert (H' : nth_error (o_point_hits (s_store s' i)) k = nth_error (o_point_hits o1) k) by (rewrite F2; reflexivity).
    rewrite H', H. subst d. rewrite Y.
    pose proof (above_scores (tc_det_thr c) _ _ k (ct_heap_scores ct dets s r)) as HA.
    split; [intros; contradiction|]. split; [|split].
    + intros _ _ Z. destruct (above_dec _ _ _) as [W|W]; auto. exfalso. apply W, HA, Z.
    + intros _ _ Z. destruct (above_dec _ _ _) as [W|W]; auto. exfalso. apply Z, HA, W.
    + intros Z. destruct (above_dec _ _ _) as [W|W]; [exfalso; apply Z; split; auto; apply HA; auto|].
      eexists. split; [reflexivity|]. unfold clip. lia.
Qed.

Theorem seen_point_live c dets p ct (s s' : st) out i k n : rnd_ok (tc_rnd c) -> tracker_state c s ->
  tc_reid_distance c = None -> update c (Some dets) p ct s = (s', Ret out) -> tracked s i -> tracked s' i ->
  point_counter s i k = Some n -> (0 <= n)%Z -> (1 <= p)%Z -> (1 <= tc_pointwise_max c)%Z ->
  In (last_det s' i) dets -> ~ In (last_det s i) dets -> above (tc_det_thr c) (s_heap s (last_det s' i)) k -> live s' i k.
Proof.
  intros Hr Ht Hre E Hi Hi' Hn H0 Hp Hw Hs Hf Ha.
  destruct (point_counter_law _ _ _ _ _ _ _ i k n Hr Ht Hre E Hi Hi' Hn) as (_ & H & _). specialize (H Hs Hf Ha).
  unfold live, live_points. unfold point_counter in H. rewrite (map_nth_error _ _ _ H). f_equal. apply Z.ltb_lt. unfold clip. lia.
Qed.

Lemma points_step_bound (c : tconf FO) (s s' : st) : prims c s s' ->
  (forall i, valid s i -> exists j, valid s j /\ (tc_reid_distance c = None -> j = i) /\ forall x, In x (o_point_hits (s_store s i)) ->
     (x <= Z.max 1 (oc_pointwise_max (o_conf (s_store s j))))%Z) -> TInv s ->
  (forall i, valid s' i -> exists j, valid s' j /\ (tc_reid_distance c = None -> j = i) /\ forall x, In x (o_point_hits (s_store s' i)) ->
     (x <= Z.max 1 (oc_pointwise_max (o_conf (s_store s' j))))%Z) /\ TInv s'.
Proof.
  induction 1 as [s|s s1 s2 Hp _ IH]; auto. intros HP T. apply IH; clear IH s2.
  2:{ eapply TInv_prims; [|exact T]. apply prims_one. exact Hp. }
  assert (Hev : forall j, valid s j -> valid s1 j /\ o_conf (s_store s1 j) = o_conf (s_store s j)).
  { intros j Hj. destruct (prims_evolves _ _ _ j (prims_one _ _ _ Hp) T Hj) as [A B]. split; auto. apply (ev_conf _ _ A). }
  assert (Hsame : forall i, valid s i -> (forall x, In x (o_point_hits (s_store s1 i)) -> exists y, In y (o_point_hits (s_store s i)) /\ (x <= y)%Z) ->
    exists j, valid s1 j /\ (tc_reid_distance c = None -> j = i) /\ forall x, In x (o_point_hits (s_store s1 i)) ->
     (x <= Z.max 1 (oc_pointwise_max (o_conf (s_store s1 j))))%Z).
  { intros i Hi Hx. destruct (HP i Hi) as (j & Hj & Hji & HB). destruct (Hev j Hj) as [V1 V2]. exists j. split; auto. split; auto.
    intros x Hin. destruct (Hx x Hin) as (y & Hy & Hle). rewrite V2. specialize (HB y Hy). lia. }
  destruct Hp as [T0 r s|i r s|i f s Hf|i j0 s Hre0 Hj0|i s Hv Hi|l s Hnd Hincl|r p ct s]; intros j Hj.
  - apply Hsame; [exact Hj|]. cbn. intros x Hx. exists x. split; auto. lia.
  - assert (Hj' : valid s j) by (destruct (cond_add_past_counts i r s) as (A & _); unfold valid in *; rewrite A in Hj; exact Hj).
    apply Hsame; auto. intros x Hx. exists x. split; [|lia].
    enough (X : o_point_hits (s_store (fst (cond_add_past i r s)) j) = o_point_hits (s_store s j)) by (rewrite X in Hx; exact Hx).
    clear. unfold cond_add_past. destruct (Nat.eqb _ 0); [reflexivity|].
    destruct (Nat.ltb _ _); [cbn; unfold upd; destruct (Nat.eqb_spec j i); subst; reflexivity|].
    destruct (o_past _); [reflexivity|]. destruct (d_age _); [|reflexivity].
    destruct (_ <=? _)%Z; [cbn; unfold upd; destruct (Nat.eqb_spec j i); subst; reflexivity|reflexivity].
  - destruct (Nat.eq_dec j i) as [->|Hne].
    2:{ apply Hsame; [exact Hj|]. cbn. rewrite upd_other by auto. intros x Hx. exists x. split; auto. lia. }
    revert Hsame. cbn [mod_obj s_store s_set_store]. rewrite upd_same. intros Hsame.
    assert (Hi : valid s i) by exact Hj.
    assert (Hcase : (forall x, In x (o_point_hits (f (s_store s i))) -> exists y, In y (o_point_hits (s_store s i)) /\ (x <= y)%Z) \/
       (forall x, In x (o_point_hits (f (s_store s i))) -> (x <= Z.max 0 (oc_pointwise_max (o_conf (s_store s i))))%Z)).
    { inversion Hf as [ct0 o0 E0 E1|r0 o0 E0 E1|p0 o0 E0 E1|p0 cn o0 Hlen E0 E1|z0 m0 o0 L1 L2 E0 E1|z0 m0 o0 L1 L2 L3 E0 E1|m0 o0 L1 E0 E1|m0 o0 E0 E1|m0 o0 E0 E1];
        try (left; intros x Hx; exists x; split; [exact Hx|lia]).
      - left. rewrite st_points. intros x Hx. apply in_map_iff in Hx as (y & <- & Hy). exists y. split; auto. lia.
      - right. intros x Hx. cbn in Hx. apply point_hits_in in Hx. lia. }
    destruct Hcase as [X|X].
    + specialize (Hsame i Hi). rewrite upd_same in Hsame. auto.
    + exists i. split; [exact Hj|]. split; auto. rewrite upd_same. intros x Hx. specialize (X x Hx).
      destruct (Hev i Hi) as [_ V2]. cbn in V2. rewrite upd_same in V2. rewrite V2. lia.
  - destruct (Nat.eq_dec j i) as [->|Hne].
    2:{ apply Hsame; [exact Hj|]. cbn. rewrite upd_other by auto. intros x Hx. exists x. split; auto. lia. }
    destruct (HP j0 Hj0) as (k & Hk & _ & HB). exists k. destruct (Hev k Hk) as [V1 V2]. split; auto. split; [intros; contradiction|].
    rewrite V2. cbn. rewrite upd_same. exact HB.
  - apply Hsame; [exact Hj|]. intros x Hx. exists x. split; [|lia]. revert Hx. cbn. unfold upd. destruct (Nat.eqb_spec j i); [subst; rewrite Nat.eqb_refl|]; auto.
  - apply Hsame; [exact Hj|]. intros x Hx. exists x. split; [exact Hx|lia].
  - destruct (Nat.eq_dec j (S (s_icount s))) as [->|Hne].
    + exists (S (s_icount s)). split; [exact Hj|]. split; auto.
      pose proof (create_object_effect c r p ct s) as CE. pose proof (cf_new _ _ _ _ _ _ CE 0 ltac:(cbn; lia)) as NR.
      rewrite Nat.add_0_r in NR. rewrite (nr_points _ _ _ _ _ _ _ NR). intros x Hx. apply in_map_iff in Hx as (b & <- & _). destruct b; lia.
    + pose proof (create_object_effect c r p ct s) as CE.
      assert (Hj' : valid s j) by (unfold valid in *; rewrite (cf_icount _ _ _ _ _ _ CE) in Hj; cbn in Hj; lia).
      apply Hsame; auto. rewrite (cf_old _ _ _ _ _ _ CE) by (unfold valid in Hj'; lia). intros x Hx. exists x. split; auto. lia.
Qed.

Theorem point_counters_bounded c (s : st) i : tracker_state c s -> known s i ->
  exists j, known s j /\ (tc_reid_distance c = None -> j = i) /\
    forall k n, point_counter s i k = Some n ->
      (n <= Z.max 1 (Z.max (tc_pointwise_max c) (oc_initial_period (o_conf (s_store s j)))))%Z.
Proof.
  intros Ht Hi.
  assert (H : forall i, valid s i -> exists j, valid s j /\ (tc_reid_distance c = None -> j = i) /\ forall x, In x (o_point_hits (s_store s i)) ->
     (x <= Z.max 1 (oc_pointwise_max (o_conf (s_store s j))))%Z).
  { clear i Hi. induction Ht as [h g d|s h g H IH Hg|s dets p ct H IH].
    - intros i Hi. unfold valid in Hi. cbn in Hi. lia.
    - exact IH.
    - apply tracker_state_good in H as [T C]. refine (proj1 (points_step_bound c s _ (update_prims _ _ _ _ _ (ti_valid _ T)) IH T)). }
  destruct (H i Hi) as (j & Hj & Hji & HB). exists j. split; auto. split; auto. intros k n Hn. apply nth_error_In in Hn.
  specialize (HB n Hn). rewrite (co_pw _ _ (proj2 (tracker_state_good _ _ Ht) j Hj)) in HB. exact HB.
Qed.

Theorem point_forgotten c (s : st) fs i k : rnd_ok (tc_rnd c) -> tracker_state c s -> tc_reid_distance c = None -> video c s fs ->
  tracked s i ->
  (forall f, In f fs -> ~ (seen f i /\ above (tc_det_thr c) (s_heap (f_pre f) (last_det (f_post f) i)) k)) ->
  forall n f, nth_error fs n = Some f -> tracked (f_post f) i ->
  (Z.max 1 (Z.max (tc_pointwise_max c) (oc_initial_period (o_conf (s_store s i)))) <= Z.of_nat (S n))%Z ->
  ~ live (f_post f) i k.
Proof.
  intros Hr Ht Hre V Hi Hun n f Hf Hti HB.
  pose proof (tracker_state_good _ _ Ht) as Hg.
  destruct (point_counters_bounded c s i Ht (valid_tracked _ _ (proj1 Hg) Hi)) as (j & _ & Ej & HBd). rewrite (Ej Hre) in HBd. clear j Ej.
  set (B := Z.max 1 (Z.max (tc_pointwise_max c) (oc_initial_period (o_conf (s_store s i))))) in *.
  assert (H : forall fs (s : st) b, tracker_state c s -> video c s fs -> tracked s i ->
    (forall m, point_counter s i k = Some m -> m <= b)%Z -> 
    (forall f, In f fs -> ~ (seen f i /\ above (tc_det_thr c) (s_heap (f_pre f) (last_det (f_post f) i)) k)) ->
    forall n f, nth_error fs n = Some f -> tracked (f_post f) i -> forall m, point_counter (f_post f) i k = Some m -> (m <= Z.max 0 (b - Z.of_nat (S n)))%Z).
  { clear -laws Hr Hre. induction fs as [|f0 fs IH]; intros s b Ht V Hi Hb Hun n f Hf Hti m Hm; [destruct n; discriminate|].
    pose proof (tracker_state_good _ _ Ht) as Hg.
    destruct (video_cons_inv laws _ _ _ _ V Hr Hg) as (Gp & Gq & E & Eo & S1 & S2 & S3 & V').
    assert (Ht1 : tracker_state c (f_pre f0)) by (inversion V; subst; cbn; apply ts_meanwhile; auto).
    pose proof (tracker_state_ret _ _ _ _ _ _ _ Ht1 E) as Ht2.
    assert (Hi1 : tracked (f_pre f0) i) by (unfold tracked; rewrite S2; exact Hi).
    assert (Hti0 : tracked (f_post f0) i).
    { destruct n as [|n]; cbn in Hf; [injection Hf as <-; exact Hti|].
      destruct (in_dec Nat.eq_dec i (s_tracked (f_post f0))) as [|Hn]; auto. exfalso.
      eapply (gone_stays laws c (f_post f0) fs i Hr Gq V'); eauto.
      apply update_icount in E; auto. pose proof (valid_tracked _ _ (proj1 Gp) Hi1). unfold valid in *. lia. }
    assert (Hb1 : forall m, point_counter (f_post f0) i k = Some m -> (m <= Z.max 0 (b - 1))%Z).
    { intros m' Hm'. destruct (point_counter (f_pre f0) i k) as [n0|] eqn:En.
      - destruct (point_counter_law _ _ _ _ _ _ _ i k n0 Hr Ht1 Hre E Hi1 Hti0 En) as (_ & _ & _ & L).
        destruct (L (Hun f0 (or_introl eq_refl))) as (n' & Hn' & Hle). rewrite Hm' in Hn'. injection Hn' as ->.
        assert (Y : (n0 <= b)%Z) by (apply Hb; unfold point_counter in *; rewrite S1 in En; exact En). lia.
      - exfalso. apply nth_error_None in En.
        assert (LL : List.length (o_point_hits (s_store (f_post f0) i)) = List.length (o_point_hits (s_store (f_pre f0) i))).
        { pose proof (update_fate laws _ _ _ _ _ _ _ i Hr Gp E Hi1) as F. cbn [dets_of] in F.
          destruct F as [A B D|A B D|r dist om A B D F G0 G1|j om A B R0 I0 D F F' L G0 G1]; [contradiction| | |contradiction].
          - rewrite (um_points _ _ D), st_points, map_length. reflexivity.
          - destruct F as (o1 & F1 & F2). rewrite F2. cbn. rewrite (hr_points _ _ _ _ _ F1). unfold point_hits_update, map2.
            rewrite !map_length, combine_length. pose proof (hr_points_len _ _ _ _ _ F1) as PL. pose proof (hr_mask_len _ _ _ _ _ F1) as ML.
            rewrite (um_points _ _ D), st_points, map_length in *. destruct (d_scores _); [rewrite ML; lia|]. rewrite repeat_length. lia. }
        unfold point_counter in Hm'.
        assert (nth_error (o_point_hits (s_store (f_post f0) i)) k = None); [|congruence]. apply nth_error_None. rewrite LL. exact En. }
    destruct n as [|n]; cbn in Hf.
    - injection Hf as <-. apply Hb1 in Hm. lia.
    - specialize (IH (f_post f0) (Z.max 0 (b - 1)) Ht2 V' Hti0 Hb1 (fun f H => Hun f (or_intror H)) n f Hf Hti m Hm). lia. }
  intros L. unfold live, live_points in L. rewrite nth_error_map in L.
  destruct (nth_error (o_point_hits (s_store (f_post f) i)) k) as [m|] eqn:Em; [|discriminate]. cbn in L. injection L as L. apply Z.ltb_lt in L.
  specialize (H fs s B Ht V Hi (HBd k) Hun n f Hf Hti m Em). lia.
Qed.

(* ---- C21 ---- *)
Theorem dropped_for_good c (s : st) fs i : rnd_ok (tc_rnd c) -> tracker_state c s -> video c s fs -> known s i -> ~ tracked s i ->
  forall n f, nth_error fs n = Some f -> ~ tracked (f_post f) i /\ ~ In i (f_out f).
Proof.
  intros Hr Ht V Hk Hn n f Hf.
  pose proof (gone_stays laws c s fs i Hr (tracker_state_good _ _ Ht) V Hk Hn n f Hf) as H. split; auto.
  intros X. destruct (video_state laws c s fs Hr Ht V f (nth_error_In _ _ Hf)) as (_ & _ & _ & _ & E). rewrite E in X.
  apply active_iff in X. tauto.
Qed.

End CallTheorems6.

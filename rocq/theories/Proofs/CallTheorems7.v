(** NaN distances, absolute estimates. *)
From Coq Require Import ZArith Bool Arith String List Lia Permutation Sorting.Sorted.
From Verif Require Import Model.Num Model.Base Model.Matching Model.Filter Model.Tracker
  Spec.MatchingSpec Spec.IdentitySpec Spec.CallSpec Proofs.NumLaws Proofs.MatchingProofs Proofs.TrackerFrame Proofs.Identity
  Proofs.Effect Proofs.CallEffect Proofs.CallProps Proofs.CallTheorems Proofs.CallTheorems2 Proofs.CallTheorems3 Proofs.CallTheorems4.
Import ListNotations.

Section CallTheorems7.
Context {N : Num} {FO : filter_ops N} (laws : NumLaws N).
Notation st := (st FO).
Notation tobj := (tobj FO).
Notation frame := (CallSpec.frame FO).

(* ---- C27 ---- *)
Lemma map_result_total {A B} (f : A -> result B) l : (forall a, In a l -> exists b, f a = Ret b) -> exists bs, map_result f l = Ret bs.
Proof.
  induction l as [|a l IH]; intros H; cbn; [eauto|]. destruct (H a (or_introl eq_refl)) as [b ->].
  destruct IH as [bs ->]; [intros; apply H; right; auto|]. eauto.
Qed.

Lemma scalar_total rnd f (s : st) objects cands : (forall v w, exists d, f v w = Ret d) ->
  exists M, scalar_distances rnd f s objects cands = Ret M.
Proof.
  intros Hf. apply map_result_total. intros c _. apply map_result_total. intros i _.
  destruct (negb _); [eauto|]. destruct (Hf (view_cand s c) (view_obj s i)) as [d ->]. eauto.
Qed.

Lemma entry_nan_concat (M : matrix N) a b n m : rect n m M -> a < n -> b < m -> entry M a b = DNaN -> existsb dis_nan (List.concat M) = true.
Proof.
  intros [L F] Ha Hb E. apply existsb_exists. exists DNaN. split; auto. apply in_concat. unfold entry in E.
  exists (nth a M []). split; [apply nth_In; lia|]. rewrite <- E. apply nth_In.
  rewrite Forall_forall in F. rewrite (F (nth a M [])); auto. apply nth_In. lia.
Qed.

Theorem nan_raises c f dets p ct (s : st) i r : rnd_ok (tc_rnd c) -> tracker_state c s ->
  tc_distance c = ScalarDistance f -> (forall v w, exists d, f v w = Ret d) ->
  let s0 := snd (begin_update c dets ct s) in
  matchable c s i -> o_initializing (s_store s i) = false -> In r dets ->
  d_label (s_heap s0 r) = obj_label s0 i -> f (VDet (s_heap s0 r)) (view_obj s0 i) = Ret DNaN ->
  exists s', update c (Some dets) p ct s = (s', Raise EValueError) /\
    s_icount s' = s_icount s /\ s_count s' = s_count s /\ s_gcount s' = s_gcount s /\ incl (s_tracked s') (s_tracked s) /\
    (forall j, tracked s' j -> s_store s' j = obj_update_ct ct (tracker_step (s_store s j))) /\
    (forall j, known s j -> ~ tracked s' j -> s_store s' j = s_store s j).
Proof.
  intros Hr Ht Ed Hf s0 Hm Hi Hin Hl Hnan. apply tracker_state_good in Ht as [T C].
  destruct (begin_update c dets ct s) as [[al de] s0'] eqn:E. cbn in s0. subst s0.
  destruct (begin_update_effect _ _ _ _ _ _ _ (ti_nodup _ T) E) as (-> & -> & ST).
  exists s0'. split.
  2:{ destruct ST as [A1 A2 A3 A4 A5 A6 A7]. rewrite A5, A6, A7. unfold tracked. rewrite A4. repeat split; auto.
      intros j. apply kept_tracked. }
  unfold update. replace (match ct with Some _ => _ | None => _ end) with
    (let '(alive, dead, s) := begin_update c dets ct s in associate c alive dead dets p ct s) by (destruct ct; reflexivity).
  rewrite E. unfold associate.
  set (objs := filter _ (alive c s)).
  assert (Hobj : In i objs).
  { apply filter_In. apply matchable_alive in Hm. split; auto. rewrite (sp_step _ _ _ _ _ ST i (alive_kept _ _ _ Hm)), step_initializing, Hi. auto. }
  unfold update_objects_in_place. destruct dets as [|r0 dets']; [destruct Hin|]. set (dets := r0 :: dets') in *.
  change (map CDet dets) with (CDet r0 :: map CDet dets') at 1. cbv iota.
  rewrite Ed. cbn [get_distances].
  destruct (scalar_total (tc_rnd c) f s0' objs (map CDet dets) Hf) as [M HM]. rewrite HM.
  apply scalar_entries in HM as [HR HE].
  destruct (In_nth_error _ _ Hin) as [a Ha]. destruct (In_nth_error _ _ Hobj) as [b Hb].
  specialize (HE a b (CDet r) i (map_nth_error CDet _ _ Ha) Hb). cbn [cand_label view_cand] in HE.
  rewrite (proj2 (label_eqb_eq _ _) Hl), Hnan in HE. cbn [negb] in HE. injection HE as HE.
  assert (En : entry M a b = DNaN). { rewrite <- HE. pose proof (Hr DNaN) as X. cbn in X. destruct (tc_rnd c DNaN); try discriminate. auto. }
  rewrite (entry_nan_concat M a b _ _ HR); auto.
  - rewrite map_length. apply nth_error_Some. congruence.
  - apply nth_error_Some. congruence.
Qed.

Theorem returned_no_nan c f dets p ct (s s' : st) out i r : rnd_ok (tc_rnd c) -> tracker_state c s ->
  tc_distance c = ScalarDistance f -> update c (Some dets) p ct s = (s', Ret out) ->
  let s0 := snd (begin_update c dets ct s) in
  matchable c s i -> o_initializing (s_store s i) = false -> In r dets -> d_label (s_heap s0 r) = obj_label s0 i ->
  exists d, f (VDet (s_heap s0 r)) (view_obj s0 i) = Ret d /\ d <> DNaN.
Proof.
  intros Hr Ht Ed E s0 Hm Hi Hin Hlab.
  destruct (initialized_first laws _ _ _ _ _ _ _ Hr Ht E) as (ini & uni & M1 & M2 & P1 & P2 & TP). fold s0 in TP.
  assert (Hini : In i ini) by (apply (tp_ini _ _ _ _ _ _ _ _ _ _ _ TP); auto).
  assert (HM : get_distances (tc_rnd c) (tc_distance c) s0 ini (map CDet dets) = Ret M1).
  { apply (tp_matrix1 _ _ _ _ _ _ _ _ _ _ _ TP). intros X. subst dets. destruct Hin. }
  rewrite Ed in HM. cbn in HM. apply scalar_entries in HM as [HR HE].
  destruct (In_nth_error _ _ Hin) as [a Ha]. destruct (In_nth_error _ _ Hini) as [b Hb].
  specialize (HE a b (CDet r) i (map_nth_error CDet _ _ Ha) Hb). cbn [cand_label view_cand] in HE.
  rewrite (proj2 (label_eqb_eq _ _) Hlab) in HE. cbn [negb] in HE.
  destruct (f (VDet (s_heap s0 r)) (view_obj s0 i)) as [d|e] eqn:Ef; [|discriminate]. injection HE as HE.
  exists d. split; auto. intros ->. pose proof (Hr DNaN) as X. rewrite HE in X. cbn in X.
  pose proof (tp_nan1 _ _ _ _ _ _ _ _ _ _ _ TP) as Hn. unfold nan_free in Hn.
  rewrite (entry_nan_concat M1 a b _ _ HR) in Hn; [discriminate| | |].
  - rewrite map_length. apply nth_error_Some. congruence.
  - apply nth_error_Some. congruence.
  - destruct (entry M1 a b); try discriminate. auto.
Qed.

Lemma others_In used : forall l k a, a < length l -> ~ In (k + a) used -> In (nth a l 0) (others used k l).
Proof.
  induction l as [|x l IH]; intros k a Ha Hn; cbn in *; [lia|]. destruct a as [|a].
  - rewrite Nat.add_0_r in Hn. destruct (in_dec Nat.eq_dec k used); [contradiction|left; reflexivity].
  - assert (X : In (nth a l 0) (others used (S k) l)) by (apply IH; [lia|]; rewrite Nat.add_succ_l, <- Nat.add_succ_r; exact Hn).
    destruct (in_dec Nat.eq_dec k used); [exact X|right; exact X].
Qed.

Theorem returned_no_nan_initializing c f dets p ct (s s' : st) out i r : rnd_ok (tc_rnd c) -> tracker_state c s ->
  tc_distance c = ScalarDistance f -> update c (Some dets) p ct s = (s', Ret out) ->
  let s0 := snd (begin_update c dets ct s) in
  matchable c s i -> o_initializing (s_store s i) = true -> In r dets -> d_label (s_heap s0 r) = obj_label s0 i ->
  (forall j, matchable c s j -> o_initializing (s_store s j) = false -> last_det s' j <> r) ->
  exists (s1 : st) d, s_store s1 i = s_store s0 i /\ (forall q, upto_age (s_heap s0 q) (s_heap s1 q)) /\
    f (VDet (s_heap s1 r)) (view_obj s1 i) = Ret d /\ d <> DNaN.
Proof.
  intros Hr Ht Ed E s0 Hm Hi Hin Hlab Hno.
  destruct (initialized_first laws _ _ _ _ _ _ _ Hr Ht E) as (ini & uni & M1 & M2 & P1 & P2 & TP). fold s0 in TP.
  assert (Huni : In i uni) by (apply (tp_uni _ _ _ _ _ _ _ _ _ _ _ TP); auto).
  assert (Hrest : In r (others (map fst P1) 0 dets)).
  { destruct (In_nth _ _ 0 Hin) as (a & Ha & Ea). rewrite <- Ea. apply others_In; [exact Ha|]. cbn. intros X.
    apply in_map_iff in X as ([a' b] & Ex & X). cbn in Ex. subst a'.
    pose proof (tp_last1 _ _ _ _ _ _ _ _ _ _ _ TP _ _ X) as L. rewrite Ea in L. revert L.
    destruct (tp_match1 _ _ _ _ _ _ _ _ _ _ _ TP) as (_ & R & _). apply R in X as [_ X].
    destruct (proj1 (tp_ini _ _ _ _ _ _ _ _ _ _ _ TP (nth b ini 0)) (nth_In _ _ X)) as [Y1 Y2]. apply Hno; auto. }
  destruct (tp_matrix2 _ _ _ _ _ _ _ _ _ _ _ TP) as (s1 & U1 & U2 & HM); [intros X; rewrite X in Hrest; destruct Hrest|].
  exists s1. rewrite Ed in HM. cbn in HM. apply scalar_entries in HM as [HR HE].
  destruct (In_nth_error _ _ Hrest) as [a Ha]. destruct (In_nth_error _ _ Huni) as [b Hb].
  specialize (HE a b (CDet r) i (map_nth_error CDet _ _ Ha) Hb). cbn [cand_label view_cand] in HE.
  assert (Hlab1 : d_label (s_heap s1 r) = obj_label s1 i).
  { destruct (U2 r) as (_ & _ & X & _). rewrite <- X, Hlab. unfold obj_label. rewrite U1; auto. }
  rewrite (proj2 (label_eqb_eq _ _) Hlab1) in HE. cbn [negb] in HE.
  destruct (f (VDet (s_heap s1 r)) (view_obj s1 i)) as [d|e] eqn:Ef; [|discriminate]. injection HE as HE.
  exists d. split; [auto|]. split; [exact U2|]. split; [reflexivity|]. intros ->. pose proof (Hr DNaN) as X. rewrite HE in X. cbn in X.
  pose proof (tp_nan2 _ _ _ _ _ _ _ _ _ _ _ TP) as Hn. unfold nan_free in Hn.
  rewrite (entry_nan_concat M2 a b _ _ HR) in Hn; [discriminate| | |].
  - rewrite map_length. apply nth_error_Some. congruence.
  - apply nth_error_Some. congruence.
  - destruct (entry M2 a b); try discriminate. auto.
Qed.

Theorem ids_after_any_call c (s : st) dets p ct : tracker_state c s ->
  let s' := fst (update c dets p ct s) in
  tracker_state c s' /\
  (forall i j a, known s' i -> known s' j -> o_id (s_store s' i) = Some a -> o_id (s_store s' j) = Some a -> i = j) /\
  (forall i a, known s' i -> o_id (s_store s' i) = Some a -> 1 <= a <= total_object_count s') /\
  (forall a, 1 <= a <= total_object_count s' -> exists i, known s' i /\ o_id (s_store s' i) = Some a) /\
  (forall i, known s i -> known s' i /\ forall a, o_id (s_store s i) = Some a -> o_id (s_store s' i) = Some a).
Proof.
  intros Ht s'. pose proof (ts_update c s dets p ct Ht) as Ht'. fold s' in Ht'. split; auto.
  pose proof (tracker_state_good _ _ Ht) as [T0 _].
  apply tracker_state_good in Ht' as [T _]. split; [|split; [|split]].
  - intros i j a Hi Hj. apply (ti_inj _ T); auto.
  - intros i a Hi Ha. destruct (o_initializing (s_store s' i)) eqn:E.
    + apply (ti_init _ T) in E as [E _]; auto. congruence.
    + apply (ti_done _ T) in E as (a' & g & E & _ & B & _); auto. rewrite Ha in E. injection E as <-. exact B.
  - exact (ti_surj _ T).
  - intros i Hi. destruct (prims_evolves c s s' i (update_prims _ _ _ _ _ (ti_valid _ T0)) T0 Hi) as [A B]. split; auto.
    intros a. apply (ev_id _ _ A).
Qed.

(* ---- C45 ---- *)
Lemma last_ct_app (fs : list frame) f : last_ct (fs ++ [f]) = match f_ct f with Some T => Some T | None => last_ct fs end.
Proof. unfold last_ct. rewrite fold_left_app. reflexivity. Qed.

Theorem latest_transformation c (s : st) f0 fs i : rnd_ok (tc_rnd c) -> tracker_state c s -> video c s (f0 :: fs) ->
  s_icount (f_pre f0) < i <= s_icount (f_post f0) ->
  forall n f, nth_error (f0 :: fs) n = Some f -> tracked (f_post f) i ->
  let o := s_store (f_post f) i in
  match last_ct (firstn (S n) (f0 :: fs)) with
  | None => get_estimate o true = Raise EValueError /\ exists x, get_estimate o false = Ret x
  | Some T => exists x, get_estimate o true = Ret x /\ get_estimate o false = Ret (ct_abs_to_rel T x)
  end.
Proof.
  intros Hr Ht V Hi n f Hf Hti o.
  enough (H : o_abs_to_rel o = option_map ct_abs_to_rel (last_ct (firstn (S n) (f0 :: fs)))).
  { unfold get_estimate. rewrite H. destruct (last_ct _) as [T|]; cbn; eauto. }
  subst o. apply tracker_state_good in Ht.
  destruct (video_cons_inv laws _ _ _ _ V Hr Ht) as (Gp & Gq & E & Eo & S1 & S2 & S3 & V').
  destruct (new_object laws _ _ _ _ _ _ _ _ Hr Gp E Hi) as (Hti0 & r & Hri & NR).
  assert (H : forall fs (s : st) past, good c s -> video c s fs -> tracked s i ->
    o_abs_to_rel (s_store s i) = option_map ct_abs_to_rel (last_ct past) ->
    forall n f, nth_error fs n = Some f -> tracked (f_post f) i ->
    o_abs_to_rel (s_store (f_post f) i) = option_map ct_abs_to_rel (last_ct (past ++ firstn (S n) fs))).
  { clear -laws Hr. induction fs as [|f0 fs IH]; intros s past Hg V Hi Ha n f Hf Hti; [destruct n; discriminate|].
    destruct (video_cons_inv laws _ _ _ _ V Hr Hg) as (Gp & Gq & E & Eo & S1 & S2 & S3 & V').
    assert (Hi1 : tracked (f_pre f0) i) by (unfold tracked; rewrite S2; exact Hi).
    assert (Hti0 : tracked (f_post f0) i).
    { destruct n as [|n]; cbn in Hf; [injection Hf as <-; exact Hti|].
      destruct (in_dec Nat.eq_dec i (s_tracked (f_post f0))) as [|Hn]; auto. exfalso.
      eapply (gone_stays laws c (f_post f0) fs i Hr Gq V'); eauto.
      apply update_icount in E; auto. pose proof (valid_tracked _ _ (proj1 Gp) Hi1). unfold valid in *. lia. }
    assert (ST : o_abs_to_rel (obj_update_ct (f_ct f0) (tracker_step (s_store (f_pre f0) i))) =
       option_map ct_abs_to_rel (last_ct (past ++ [f0]))).
    { rewrite last_ct_app, S1. destruct (f_ct f0); cbn; [reflexivity|exact Ha]. }
    assert (A1 : o_abs_to_rel (s_store (f_post f0) i) = option_map ct_abs_to_rel (last_ct (past ++ [f0]))).
    { destruct (frame_fate laws _ _ _ _ i V Hr Hg Hi) as (F & CO). rewrite <- ST.
      destruct F as [A B D|A B D|r d om A B D F G0 G1|j om A B R0 I0 D F F' L G0 G1].
      - contradiction.
      - destruct D as [m ->]. reflexivity.
      - destruct F as (o1 & F1 & F2). rewrite F2. cbn. rewrite (hr_ct _ _ _ _ _ F1). destruct D as [m ->]. reflexivity.
      - rewrite (mr_ct _ _ _ G1). destruct G0 as [m ->]. reflexivity. }
    destruct n as [|n]; cbn in Hf.
    - injection Hf as <-. exact A1.
    - rewrite (IH (f_post f0) (past ++ [f0]) Gq V' Hti0 A1 n f Hf Hti). rewrite <- app_assoc. reflexivity. }
  assert (N0 : o_abs_to_rel (s_store (f_post f0) i) = option_map ct_abs_to_rel (last_ct [f0])).
  { rewrite (nr_ct _ _ _ _ _ _ _ NR). unfold last_ct. cbn. destruct (f_ct f0); reflexivity. }
  destruct n as [|n]; cbn in Hf.
  - injection Hf as <-. exact N0.
  - exact (H fs (f_post f0) [f0] Gq V' Hti0 N0 n f Hf Hti).
Qed.

End CallTheorems7.

(** C97: steadily moving things that appear, leave and are not detected in every call. *)
From Coq Require Import ZArith Reals Lra Lia List Arith Permutation.
From Verif Require Import Model.Num Model.Base Model.Matching Model.Filter Model.Distances Model.Tracker Spec.MatchingSpec Spec.BuiltinSpec Spec.KalmanSpec Spec.PointSpec Spec.PhasesSpec Spec.FollowSpec Spec.GapSpec Spec.GroundTruthSpec Spec.ExampleVideo Spec.ProgressSpec Spec.SceneSpec Spec.OcclusionSpec.
From Verif Require Import Proofs.NumLaws Proofs.TrackerFrame Proofs.Identity Proofs.Effect Proofs.CallEffect Proofs.CallProps Proofs.CallTheorems Proofs.CallTheorems2 Proofs.CallTheorems3 Proofs.PointProofs Proofs.ReplayProofs Proofs.FollowTracker Proofs.GroundTruth Proofs.Progress Proofs.SceneDistances Proofs.SceneProofs.
From Verif Require Import Spec.CallSpec.
Import ListNotations.
Local Open Scope nat_scope.

Section Replay.
Context {FO : filter_ops RNum}.
Variables (thr : RNum) (n dim i : nat).
Definition maybe_meas (f : frame FO) : option measurement :=
  if in_dec Nat.eq_dec (last_det (f_post f) i) (f_dets f) then Some (meas_of thr n dim i f) else None.
Lemma replay_gap pts fs : replay thr n dim i pts fs = gap_run FO pts (map maybe_meas fs).
Proof.
  unfold replay, gap_run. generalize (f_create FO pts) as s. induction fs as [|f fs IH]; intros s; [reflexivity|]. cbn [fold_left map].
  rewrite IH. f_equal. unfold maybe_meas. destruct (in_dec Nat.eq_dec (last_det (f_post f) i) (f_dets f)); [|reflexivity]. cbn [me_z me_mask meas_of]. rewrite sensors_bits. reflexivity.
Qed.
End Replay.

Lemma video_suffix {N : Num} {FO : filter_ops N} (c : tconf FO) s fs : video c s fs -> tracker_state c s -> forall b fb, nth_error fs b = Some fb ->
  exists sb, tracker_state c sb /\ video c sb (fb :: skipn (S b) fs).
Proof.
  intros V. induction V as [s|s heap gg dets p ct s' out fs Hg E V IH]; intros Ht b fb Hb; [destruct b; discriminate|].
  assert (Ht' : tracker_state c s') by (change s' with (fst (s', @Ret (list nat) out)); rewrite <- E; apply ts_update, ts_meanwhile; auto).
  destruct b as [|b]; cbn in Hb.
  - injection Hb as <-. exists s. split; [exact Ht|]. cbn [skipn]. constructor; auto.
  - exact (IH Ht' b fb Hb).
Qed.

Section Credit.
Variable vis : nat -> nat -> bool.
Variable cap : Z.
Hypothesis Hcap : (1 <= cap)%Z.
Notation credit := (credit vis cap).
(** The credit after [t] calls. *)
Definition crd (a t : nat) : option Z := match t with O => None | S k => credit a k end.
Lemma crd_S a t : crd a (S t) = match crd a t with None => if vis t a then Some 1%Z else None
  | Some h => Some (if vis t a then Z.min (h + 1) cap else h - 1)%Z end.
Proof. destruct t; reflexivity. Qed.
Lemma crd_cap a t h : crd a t = Some h -> (h <= cap)%Z.
Proof.
  revert h. induction t as [|t IH]; [discriminate|]. intros h. rewrite crd_S. destruct (crd a t) as [h'|].
  - specialize (IH h' eq_refl). intros E. injection E as <-. destruct (vis t a); lia.
  - destruct (vis t a); [|discriminate]. intros E. injection E as <-. lia.
Qed.
Lemma crd_grows a t l : crd a t <> None -> crd a (t + l) <> None.
Proof.
  intros H. induction l as [|l IH]; [rewrite Nat.add_0_r; exact H|]. rewrite Nat.add_succ_r, crd_S. destruct (crd a (t + l)); [discriminate|contradiction].
Qed.
Lemma crd_misses a t l h : crd a t = Some h -> (forall j, t <= j < t + l -> vis j a = false) -> crd a (t + l) = Some (h - Z.of_nat l)%Z.
Proof.
  intros H. induction l as [|l IH]; intros Hv; [rewrite Nat.add_0_r, H; f_equal; lia|]. rewrite Nat.add_succ_r, crd_S, IH by (intros j Hj; apply Hv; lia).
  rewrite (Hv (t + l)) by lia. f_equal. lia.
Qed.
Lemma crd_seen a t : crd a t <> None <-> exists j, j < t /\ vis j a = true.
Proof.
  induction t as [|t IH]; [split; [intros X; destruct (X eq_refl)|intros (j & Hj & _); lia]|]. rewrite crd_S. destruct (crd a t) as [h|] eqn:E.
  - split; [intros _; destruct (proj1 IH ltac:(discriminate)) as (j & Hj & Vj); exists j; split; [lia|exact Vj]|discriminate].
  - destruct (vis t a) eqn:Vt.
    + split; [intros _; exists t; split; [lia|exact Vt]|discriminate].
    + split; [contradiction|]. intros (j & Hj & Vj). destruct (Nat.eq_dec j t) as [->|]; [congruence|]. exfalso. apply (proj2 IH); [exists j; split; [lia|exact Vj]|reflexivity].
Qed.
Lemma crd_visible a k : vis k a = true -> crd a (S k) <> None.
Proof. intros H. apply crd_seen. exists k. split; [lia|exact H]. Qed.
(** The last call with a detection. *)
Fixpoint lastv (a k : nat) : nat := if vis k a then k else match k with O => O | S k' => lastv a k' end.
Lemma lastv_le a k : lastv a k <= k.
Proof. induction k as [|k IH]; cbn; [destruct (vis 0 a); lia|]. destruct (vis (S k) a); lia. Qed.
Lemma lastv_here a k : vis k a = true -> lastv a k = k.
Proof. intros H. destruct k; cbn; rewrite H; reflexivity. Qed.
Lemma lastv_skip a k : vis (S k) a = false -> lastv a (S k) = lastv a k.
Proof. intros H. cbn. rewrite H. reflexivity. Qed.
Lemma lastv_spec a b k : b <= k -> vis b a = true -> b <= lastv a k /\ vis (lastv a k) a = true /\ forall j, lastv a k < j <= k -> vis j a = false.
Proof.
  intros Hb Vb. induction k as [|k IH].
  - replace b with 0 in * by lia. cbn. rewrite Vb. split; [lia|]. split; [exact Vb|]. intros; lia.
  - destruct (vis (S k) a) eqn:E; [rewrite lastv_here by exact E; split; [lia|]; split; [exact E|intros; lia]|].
    assert (b <= k). { destruct (Nat.eq_dec b (S k)) as [->|]; [congruence|lia]. } rewrite lastv_skip by exact E. destruct (IH H) as (A & B & D). split; [exact A|]. split; [exact B|].
    intros j Hj. destruct (Nat.eq_dec j (S k)) as [->|]; [exact E|]. apply D. lia.
Qed.
Variable delay : Z.
Definition started (a t : nat) : Prop := exists j h, j <= t /\ crd a j = Some h /\ (delay < h)%Z.
Lemma started_S a t : started a (S t) <-> started a t \/ exists h, crd a (S t) = Some h /\ (delay < h)%Z.
Proof.
  split.
  - intros (j & h & Hj & E & H). destruct (Nat.eq_dec j (S t)) as [->|]; [right; eauto|left; exists j, h; repeat split; auto; lia].
  - intros [(j & h & Hj & E & H)|(h & E & H)]; [exists j, h|exists (S t), h]; repeat split; auto; lia.
Qed.
End Credit.

Section Scene.
Context {FO : filter_ops RNum}.
Variables (wf : nat -> fstate FO -> Prop) (same : fstate FO -> fstate FO -> Prop) (C K thr : R) (G : nat).
Hypothesis R : regular FO wf.
Hypothesis W : rewritable FO wf same.
Hypothesis HK : (0 <= K)%R.
Hypothesis HC : (C <= K * K)%R.
Variables (n dim things : nat) (x v : nat -> points RNum) (lab : nat -> label) (ref : nat -> nat -> nat) (vis : nat -> nat -> bool).
Variable arr : points RNum -> points RNum -> result (dval RNum).
Hypothesis Hn : 0 < n.
Hypothesis Hdim : 0 < dim.
Hypothesis Met : metric n dim arr.
Hypothesis Sca : scales n dim arr.
Variable c : tconf FO.
Notation cap := (tc_hit_counter_max c).
Notation delay := (tc_delay c).
Hypothesis Pw : coasts_within FO G (Z.to_nat cap) C.
Hypothesis Edist : tc_distance c = ScalarDistance (on_points arr).
Hypothesis Ethr : tc_threshold c = @DFin RNum thr.
Hypothesis Ernd : forall d, tc_rnd c d = d.
Hypothesis Ereid : tc_reid_distance c = None.
Hypothesis Emax : tc_reid_max c = None.
Hypothesis Edelay : (0 <= delay < cap)%Z.
Hypothesis Hshape : forall a, a < things -> rectangular n dim (x a) /\ rectangular n dim (v a).
Hypothesis Hrefs : forall k k' a a', a < things -> a' < things -> ref k a = ref k' a' -> k = k' /\ a = a'.
Notation pos a k := (position (x a) (v a) k).
Notation shows := (shows n x v lab c).
Notation crd := (crd vis cap).
Notation lastv := (lastv vis).
Notation started := (started vis cap delay).
Lemma Hcap : (1 <= cap)%Z.
Proof. lia. Qed.

Record gap_frame (k : nat) (f : frame FO) : Prop := {
  gf_period : f_period f = 1%Z;
  gf_ct : f_ct f = None;
  gf_dets : Permutation (f_dets f) (map (ref k) (filter (vis k) (seq 0 things)));
  gf_shows : forall a, a < things -> vis k a = true -> shows a k (s_heap (f_pre f) (ref k a))
}.
Variable calls : nat.
Hypothesis NoRet : no_return things vis cap G calls.
Hypothesis Apart : apart_with_gaps things x v lab vis arr cap K thr calls.
Notation who := (who things ref calls).
Lemma rnd_fine' : rnd_ok (tc_rnd c).
Proof. intros d. rewrite Ernd. reflexivity. Qed.
Lemma pos_rect' a k : a < things -> rectangular n dim (pos a k).
Proof. intros Ha. apply position_rect; apply Hshape, Ha. Qed.
Lemma who_ref' k a : k < calls -> a < things -> who (ref k a) = a.
Proof. apply (who_ref n dim things ref Hn Hdim Hrefs). Qed.

Lemma gdets_iff k f r : gap_frame k f -> (In r (f_dets f) <-> exists a, a < things /\ vis k a = true /\ r = ref k a).
Proof.
  intros F. split.
  - intros H. apply (Permutation_in _ (gf_dets _ _ F)) in H. apply in_map_iff in H as (a & <- & H). apply filter_In in H as [H V]. apply in_seq in H. exists a. split; [lia|]. auto.
  - intros (a & Ha & V & ->). apply (Permutation_in _ (Permutation_sym (gf_dets _ _ F))). apply in_map, filter_In. split; [apply in_seq; lia|exact V].
Qed.
Lemma gdets_who k f : gap_frame k f -> k < calls -> NoDup (map who (f_dets f)).
Proof.
  intros F Hk. apply (Permutation_NoDup (Permutation_sym (Permutation_map who (gf_dets _ _ F)))). rewrite map_map.
  rewrite (map_ext_in _ (fun a => a)); [rewrite map_id; apply NoDup_filter, seq_NoDup|]. intros a Ha. apply filter_In in Ha as [Ha _]. apply in_seq in Ha. apply who_ref'; lia.
Qed.
Lemma gpost_shows k (f : frame FO) a : tracker_state c (f_pre f) -> update c (Some (f_dets f)) (f_period f) (f_ct f) (f_pre f) = (f_post f, Ret (f_out f)) ->
  gap_frame k f -> a < things -> vis k a = true -> shows a k (s_heap (f_post f) (ref k a)).
Proof.
  intros Ht E F Ha Hv. apply tracker_state_good in Ht as [T _]. destruct (update_summary RNum_laws _ _ _ _ _ _ _ rnd_fine' T E) as (H1 & H2 & GG & news & Su & _).
  pose proof (su_heap _ _ _ _ _ _ _ _ _ _ Su (ref k a)) as (A1 & A2 & A3 & A4 & A5). rewrite (gf_ct _ _ F) in *. cbn [ct_heap] in *.
  destruct (gf_shows _ _ F a Ha Hv) as (B1 & B2 & B3 & B4 & B5). unfold SceneProofs.shows, above in *. rewrite <- A1, <- A2, <- A3, <- A5. auto.
Qed.

Variable s0 : st FO.
Variable fs : list (frame FO).
Hypothesis Ht0 : tracker_state c s0.
Hypothesis V : video c s0 fs.
Hypothesis Lfs : length fs <= calls.
Hypothesis E0 : s_tracked s0 = [].
Hypothesis I0 : s_icount s0 = 0.
Hypothesis Fr : forall k f, nth_error fs k = Some f -> gap_frame k f.

(** Object [i] follows thing [a], whose first detection was in call [b], after [t] calls with the state [s]. *)
Record own (t : nat) (s : st FO) (i a b : nat) : Prop := {
  ow_thing : a < things;
  ow_birth : b < t;
  ow_visible : vis b a = true;
  ow_created : forall fb, nth_error fs b = Some fb -> s_icount (f_pre fb) < i <= s_icount (f_post fb);
  ow_history : forall j f, nth_error fs j = Some f -> b <= j < t -> last_det (f_post f) i = ref (lastv a j) a;
  ow_last : last_det s i = ref (lastv a (t - 1)) a;
  ow_state : exists h, crd a t = Some h /\ (tracked s i <-> (-1 <= h)%Z) /\
     (tracked s i -> hit_counter s i = h /\ (o_initializing (s_store s i) = false <-> started a t))
}.
Record ginv (t : nat) (s : st FO) : Prop := {
  gi_own : forall i, known s i -> exists a b, own t s i a b;
  gi_one : forall i j a b b', known s i -> known s j -> own t s i a b -> own t s j a b' -> i = j;
  gi_all : forall a, a < things -> crd a t <> None -> exists i b, known s i /\ own t s i a b
}.
(** The state after [t] calls. *)
Definition at_time (t : nat) (s : st FO) : Prop := match t with O => s = s0 | S k => exists f, nth_error fs k = Some f /\ s = f_post f end.

Lemma next_frame t s f : at_time t s -> nth_error fs t = Some f -> tracker_state c s /\ exists rest, video c s (f :: rest).
Proof.
  intros A Hf. destruct t as [|k]; cbn in A.
  - subst s. split; [exact Ht0|]. destruct fs as [|f0 l]; [discriminate|]. injection Hf as ->. exists l. exact V.
  - destruct A as (g & Hg & ->). exact (video_next c s0 fs V Ht0 k g f Hg Hf).
Qed.

(** The measurements of an object. *)
Lemma prediction_gap k g i a b h : nth_error fs k = Some g ->
  own (S k) (f_post g) i a b -> crd a (S k) = Some h -> (0 <= h)%Z ->
  let o := s_store (f_post g) i in
  rectangular n dim (estimate (tracker_step o)) /\ oc_label (o_conf o) = lab a /\
  forall p q, p < n -> q < dim -> (Rabs (entry (estimate (tracker_step o)) p q - entry (pos a (S k)) p q) <= K * Rabs (entry (v a) p q))%R.
Proof.
  intros Hg O Hc Hh o. destruct O as [Ha Hb Vb Cr Hi _ St]. destruct St as (h' & Hc' & Tr & _). rewrite Hc in Hc'. injection Hc' as <-.
  assert (Tg : tracked (f_post g) i) by (apply Tr; lia). destruct (Hshape a Ha) as [Sx Sv].
  assert (Lk : k < length fs) by (apply nth_error_Some; congruence).
  destruct (nth_error fs b) as [fb|] eqn:Eb; [|apply nth_error_None in Eb; lia]. specialize (Cr fb eq_refl).
  destruct (video_suffix c s0 fs V Ht0 b fb Eb) as (sb & Tb & Vb').
  set (m := k - b). set (fm := firstn m (skipn (S b) fs)). assert (Vm : video c sb (fb :: fm)) by (exact (video_firstn c sb _ Vb' (S m))).
  assert (Nm : forall j f, nth_error fm j = Some f -> nth_error fs (b + S j) = Some f /\ b + S j <= k).
  { intros j f. unfold fm. rewrite nth_error_firstn. destruct (Nat.ltb_spec j m); [|discriminate]. rewrite nth_error_skipn. intros E. split; [rewrite <- E; f_equal; lia|lia]. }
  assert (Nm' : forall j f, nth_error (fb :: fm) j = Some f -> nth_error fs (b + j) = Some f /\ b + j <= k).
  { intros [|j] f Hf; [injection Hf as <-; rewrite Nat.add_0_r; split; [exact Eb|lia]|apply Nm, Hf]. }
  assert (Gm : nth_error (fb :: fm) m = Some g).
  { destruct m as [|m'] eqn:Em; [replace b with k in Eb by lia; rewrite Hg in Eb; cbn; congruence|]. cbn [nth_error]. unfold fm. rewrite nth_error_firstn.
    destruct (Nat.ltb_spec m' (S m')); [|lia]. rewrite nth_error_skipn. rewrite <- Hg. f_equal. lia. }
  destruct (frame_ok n dim Hn Hdim c s0 fs b fb V Ht0 Eb) as [Tfb Ufb]. pose proof (Fr b fb Eb) as Fb.
  assert (Lb : last_det (f_post fb) i = ref b a) by (rewrite (Hi b fb Eb) by lia; rewrite lastv_here by exact Vb; reflexivity).
  assert (D0 : shows a b (s_heap (f_post fb) (last_det (f_post fb) i))) by (rewrite Lb; apply gpost_shows; auto).
  assert (Fre : forall f, In f fm -> fresh f i).
  { intros f Hf. apply In_nth_error in Hf as [j Hf]. destruct (Nm j f Hf) as [Hf' Hj]. unfold fresh.
    destruct (nth_error fs (b + j)) as [g'|] eqn:Eg; [|apply nth_error_None in Eg; lia]. replace (b + S j) with (S (b + j)) in * by lia.
    destruct (video_next _ _ _ V Ht0 (b + j) g' f Eg Hf') as (Tg' & rest & V'). destruct (video_first _ _ _ _ V' Tg') as (_ & _ & _ & S1 & _).
    unfold last_det. rewrite S1. change (~ In (last_det (f_post g') i) (f_dets f)). rewrite (Hi (b + j) g' Eg) by lia.
    intros X. apply (gdets_iff _ _ _ (Fr _ _ Hf')) in X as (a' & Ha' & _ & X). apply Hrefs in X; auto. pose proof (lastv_le vis a (b + j)). lia. }
  assert (Seen : forall j f, nth_error fm j = Some f -> (In (last_det (f_post f) i) (f_dets f) <-> vis (b + S j) a = true)).
  { intros j f Hf. destruct (Nm j f Hf) as [Hf' Hj]. rewrite (Hi (b + S j) f Hf') by lia. rewrite (gdets_iff _ _ _ (Fr _ _ Hf')). split.
    - intros (a' & Ha' & Va & X). apply Hrefs in X as [_ X]; auto. subst a'. exact Va.
    - intros Va. exists a. rewrite lastv_here by exact Va. auto. }
  assert (OH : o_abs_to_rel o = None /\ oc_label (o_conf o) = lab a).
  { apply (object_history RNum_laws c sb fb fm i (fun _ o => o_abs_to_rel o = None /\ oc_label (o_conf o) = lab a) rnd_fine' Tb Ereid Vm Cr) with (n := m) (f := g); auto.
    + intros r Hin Er HA NR. rewrite (nr_ct _ _ _ _ _ _ _ NR), (nr_conf _ _ _ _ _ _ _ NR), (gf_ct _ _ Fb). split; [reflexivity|]. cbn [oc_label]. rewrite Er.
      destruct (HA (last_det (f_post fb) i)) as (_ & _ & El & _). rewrite (gf_ct _ _ Fb) in El. rewrite El. apply D0.
    + intros past f Hf _ _ [P1 P2] _ U. apply In_nth_error in Hf as [j Hf]. destruct (Nm j f Hf) as [Hf' _]. destruct U as [mm ->]. rewrite (gf_ct _ _ (Fr _ _ Hf')). cbn. auto.
    + intros past f r dist om Hf _ _ [P1 P2] _ _ _ U (o1 & F1 & F2). apply In_nth_error in Hf as [j Hf]. destruct (Nm j f Hf) as [Hf' _].
      rewrite F2. cbn [set_last_distance o_abs_to_rel o_conf]. rewrite (hr_ct _ _ _ _ _ F1), (hr_conf _ _ _ _ _ F1). destruct U as [mm ->]. rewrite (gf_ct _ _ (Fr _ _ Hf')). cbn. auto. }
  destruct OH as [Ea El]. destruct D0 as (_ & D2 & _ & D4 & D5). set (z0 := d_absolute_points (s_heap (f_post fb) (last_det (f_post fb) i))) in *.
  assert (RC : rectangular n dim z0) by (rewrite D2; apply pos_rect', Ha).
  assert (L : List.length (over_threshold (tc_det_thr c) n (s_heap (f_post fb) (last_det (f_post fb) i))) = n).
  { unfold over_threshold. destruct (d_scores _) as [sc|] eqn:Esc; [rewrite map_length; auto|apply repeat_length]. }
  destruct (filter_replay RNum_laws c sb fb fm i wf same n dim R W rnd_fine' Tb Ereid Vm Cr RC Hn Hdim L D5 Fre m g Gm Tg) as (X1 & X2 & X3 & X4).
  fold z0 in X1. replace (firstn m fm) with fm in X1 by (unfold fm; rewrite firstn_firstn, Nat.min_id; reflexivity). rewrite replay_gap in X1.
  set (ms := map (maybe_meas (tc_det_thr c) n dim i) fm) in *.
  destruct (predicted_estimate wf same n dim o _ R W Hdim Ea X1 X2 X3 X4) as [Re En]. split; [exact Re|]. split; [exact El|]. intros p q Hp Hq.
  assert (Lm : length ms = m). { unfold ms, fm. rewrite map_length, firstn_length, skipn_length. lia. }
  assert (Ms : forall j, j < m -> exists f, nth_error fm j = Some f /\ nth_error ms j = Some (maybe_meas (tc_det_thr c) n dim i f)).
  { intros j Hj. unfold ms in *. rewrite map_length in Lm. destruct (nth_error fm j) as [f|] eqn:Ef; [|apply nth_error_None in Ef; lia]. exists f. split; [reflexivity|]. rewrite nth_error_map, Ef. reflexivity. }
  assert (Vis : forall j o', nth_error ms j = Some o' -> (o' = None <-> vis (b + S j) a = false)).
  { intros j o' Hj. assert (j < m) by (rewrite <- Lm; apply nth_error_Some; congruence). destruct (Ms j H) as (f & Hf & E). rewrite E in Hj. injection Hj as <-.
    pose proof (Seen j f Hf) as Sj. unfold maybe_meas. destruct (in_dec _ _ _) as [Y|Y].
    - split; [discriminate|]. intros X. apply Sj in Y. congruence.
    - split; [|auto]. intros _. destruct (vis (b + S j) a) eqn:X; [|reflexivity]. destruct (Y (proj2 Sj eq_refl)). }
  assert (Mv : moves_with_gaps (entry (v a) p q) (entry (pos a b) p q) (p * dim + q) z0 ms).
  { split.
    - rewrite (entry_flat n dim) by auto. rewrite D2. apply (entry_coordinate n dim); auto. apply pos_rect', Ha.
    - intros j me Hme. assert (Hj : j < m) by (rewrite <- Lm; apply nth_error_Some; congruence). destruct (Ms j Hj) as (f & Hf & E). rewrite E in Hme. injection Hme as Hme.
      unfold maybe_meas in Hme. destruct (in_dec _ _ _) as [Y|]; [|discriminate]. injection Hme as <-. apply (proj1 (Seen j f Hf)) in Y.
      destruct (Nm j f Hf) as [Hf' Hj']. destruct (frame_ok n dim Hn Hdim c s0 fs _ f V Ht0 Hf') as [Tf Uf].
      assert (Df : shows a (b + S j) (s_heap (f_post f) (last_det (f_post f) i))). { rewrite (Hi _ f Hf') by lia. rewrite lastv_here by exact Y. apply gpost_shows; auto. }
      destruct Df as (_ & D2' & _ & _ & D5'). assert (Rf : rectangular n dim (d_absolute_points (s_heap (f_post f) (last_det (f_post f) i)))) by (rewrite D2'; apply pos_rect', Ha).
      cbn [me_z me_mask meas_of]. split; [split; cbn [me_z me_mask meas_of]|split].
      + rewrite (flat_length n dim _ RC). exact (flat_length (N := RNum) n dim _ Rf).
      + rewrite mask_length, (flat_length n dim _ RC). reflexivity.
      + rewrite mask_at by auto. f_equal. apply above_b, D5', Hp.
      + rewrite (entry_flat n dim) by auto. rewrite D2', (entry_coordinate n dim) by (auto; apply pos_rect', Ha). rewrite !(position_entry n dim) by auto. f_equal. rewrite plus_INR. ring. }
  assert (Bef : forall before l after, ms = before ++ l ++ after -> misses l -> forall j, b + length before < j <= b + length before + length l -> vis j a = false).
  { intros before l after Em Hl j Hj. set (q0 := j - b - 1). assert (Hq0 : length before <= q0 < length before + length l) by lia.
    destruct (nth_error l (q0 - length before)) as [o'|] eqn:Eo; [|apply nth_error_None in Eo; lia].
    assert (Y : nth_error ms q0 = Some o') by (rewrite Em, nth_error_app2, nth_error_app1 by lia; exact Eo). replace j with (b + S q0) by lia. apply (Vis q0 o' Y). apply Hl. eapply nth_error_In. exact Eo. }
  assert (Gp : gaps_at_most G ms).
  { intros before l me after Em Hl. set (p0 := b + S (length before + length l)).
    assert (Ep : nth_error ms (length before + length l) = Some (Some me)). { rewrite Em, nth_error_app2 by lia. replace (length before + length l - length before) with (length l) by lia. rewrite nth_error_app2, Nat.sub_diag by lia. reflexivity. }
    assert (Vp : vis p0 a = true). { destruct (vis p0 a) eqn:X; [reflexivity|]. apply (proj2 (Vis _ _ Ep)) in X. discriminate. }
    assert (Lp : length before + length l < m) by (rewrite <- Lm; apply nth_error_Some; congruence).
    set (q0 := lastv a (b + (length before + length l))). destruct (lastv_spec vis a b (b + (length before + length l)) ltac:(lia) Vb) as (Q1 & Q2 & Q3). fold q0 in Q1, Q2, Q3.
    assert (Qb : q0 <= b + length before). { destruct (le_lt_dec q0 (b + length before)) as [|X]; [assumption|exfalso]. pose proof (lastv_le vis a (b + (length before + length l))). fold q0 in H.
      rewrite (Bef before l (Some me :: after) Em Hl q0) in Q2 by lia. discriminate. }
    set (l0 := p0 - q0 - 1). assert (p0 = q0 + S l0) by (unfold l0, p0; lia). assert (length l <= l0) by (unfold l0, p0; lia). enough (l0 <= G) by lia.
    destruct (Z.lt_ge_cases (Z.of_nat G) cap) as [HG|HG].
    - apply (nt_gap _ _ _ _ _ NoRet HG a q0 l0 Ha); [lia|exact Q2|rewrite <- H; exact Vp|]. intros j Hj. apply Q3. unfold p0 in *. lia.
    - destruct (crd a (S q0)) as [hq|] eqn:Ec; [|destruct (crd_visible vis cap a q0 Q2 Ec)].
      pose proof (crd_misses vis cap a (S q0) l0 hq Ec) as X.
      pose proof (crd_cap vis cap Hcap a (S q0) hq Ec) as Y. assert (Z0 : (0 <= hq - Z.of_nat l0)%Z); [|lia].
      assert (X' : credit vis cap a (q0 + l0) = Some (hq - Z.of_nat l0)%Z). { change (credit vis cap a (q0 + l0)) with (crd a (S (q0 + l0))). apply X. intros j Hj. apply Q3. unfold p0 in *. lia. }
      apply (nt_credit _ _ _ _ _ NoRet a (q0 + l0) _ Ha); [lia|exact X'|]. replace (S (q0 + l0)) with p0 by lia. exact Vp. }
  assert (Tp : missed_at_most (Z.to_nat cap) ms).
  { intros before l Em Hl. assert (Lb' : length before + length l = m) by (rewrite <- Lm, Em, app_length; reflexivity).
    assert (Hv : forall j, S (b + length before) <= j < S (b + length before) + length l -> vis j a = false).
    { intros j Hj. apply (Bef before l [] ltac:(rewrite app_nil_r; exact Em) Hl). lia. }
    destruct (crd a (S (b + length before))) as [hq|] eqn:Ec.
    - pose proof (crd_misses vis cap a _ (length l) hq Ec Hv) as X. replace (S (b + length before) + length l) with (S k) in X by lia. rewrite Hc in X. injection X as X.
      pose proof (crd_cap vis cap Hcap a _ hq Ec) as Y. lia.
    - exfalso. apply (crd_grows vis cap a (S b) (length before) (crd_visible vis cap a b Vb)). replace (S b + length before) with (S (b + length before)) by lia. exact Ec. }
  destruct (Pw _ _ _ _ _ Mv Gp Tp) as (y & Hy & By). rewrite (En p q y Hp Hq Hy). rewrite Lm in By.
  assert (Ee : (entry (pos a b) p q + INR (S m) * entry (v a) p q)%R = entry (pos a (S k)) p q).
  { rewrite !(position_entry n dim) by auto. replace (S k) with (b + S m) by (unfold m; lia). rewrite plus_INR. ring. }
  rewrite Ee in By.
  assert (X : (Rsqr (y - entry (pos a (S k)) p q) <= Rsqr (K * Rabs (entry (v a) p q)))%R).
  { unfold Rsqr. eapply Rle_trans; [exact By|]. replace (K * Rabs (entry (v a) p q) * (K * Rabs (entry (v a) p q)))%R with (K * K * (Rabs (entry (v a) p q) * Rabs (entry (v a) p q)))%R by ring.
    replace (Rabs (entry (v a) p q) * Rabs (entry (v a) p q))%R with (entry (v a) p q * entry (v a) p q)%R by (rewrite <- Rabs_mult; symmetry; apply Rabs_right, Rle_ge, Rle_0_sqr).
    apply Rmult_le_compat_r; [apply Rle_0_sqr|exact HC]. }
  apply Rsqr_le_abs_0 in X. eapply Rle_trans; [exact X|]. rewrite Rabs_right; [apply Rle_refl|]. apply Rle_ge, Rmult_le_pos; [exact HK|apply Rabs_pos].
Qed.

(** The distances of a call tell the things apart. *)
Lemma near_gap k i a t h (s1 : st FO) : S k < calls -> a < things -> t < things -> vis (S k) a = true -> credit vis cap t k = Some h -> (0 <= h)%Z ->
  d_points (s_heap s1 (ref (S k) a)) = pos a (S k) -> d_label (s_heap s1 (ref (S k) a)) = lab a -> oc_label (o_conf (s_store s1 i)) = lab t ->
  rectangular n dim (estimate (s_store s1 i)) ->
  (forall p q, p < n -> q < dim -> (Rabs (entry (estimate (s_store s1 i)) p q - entry (pos t (S k)) p q) <= K * Rabs (entry (v t) p q))%R) ->
  (near c (on_points arr) s1 (ref (S k) a) i <-> a = t).
Proof.
  intros Hk Ha Ht Va Ec Hh Ep El Eo Re En.
  destruct (Hshape t Ht) as [Sx Sv]. destruct (ag_slow _ _ _ _ _ _ _ _ _ _ Apart t Ht) as (sp & Es & Hs).
  destruct (near_position n dim arr K (x t) (v t) (S k) _ sp Met Sca HK Sx Sv Re En Es) as (e & Ee & He).
  unfold near, obj_label, view_obj, on_points. cbn [v_obj]. rewrite El, Eo, Ep, Ethr. split.
  - intros [Hl (d & Ed & Hd)]. destruct (Nat.eq_dec a t) as [|Hne]; [assumption|exfalso].
    destruct (ag_apart _ _ _ _ _ _ _ _ _ _ Apart a t k h Ha Ht Hne Hl Hk Va Ec Hh) as (dd & s2 & E1 & E2 & H12). rewrite Es in E2. injection E2 as <-.
    destruct (metric_value _ _ _ Met (pos a (S k)) (estimate (s_store s1 i)) (pos_rect' _ _ Ha) Re) as (dq & Eq & _). rewrite Eq in Ed. injection Ed as <-.
    rewrite Ernd in Hd. apply (proj1 (dlt_R _ _)) in Hd.
    rewrite (metric_symmetric _ _ _ Met (pos t (S k)) (estimate (s_store s1 i)) (pos_rect' _ _ Ht) Re) in Ee.
    pose proof (metric_triangle _ _ _ Met _ _ _ _ _ _ (pos_rect' a (S k) Ha) Re (pos_rect' t (S k) Ht) Eq Ee E1) as X. clear - X H12 He Hd. lra.
  - intros ->. split; [reflexivity|]. exists (@DFin RNum e). split; [exact Ee|]. rewrite Ernd. apply dlt_R. lra.
Qed.

Lemma own_who t s i a b : t <= calls -> own t s i a b -> who (last_det s i) = a.
Proof. intros Ht O. rewrite (ow_last _ _ _ _ _ O). apply who_ref'; [|apply (ow_thing _ _ _ _ _ O)]. pose proof (lastv_le vis a (t - 1)). pose proof (ow_birth _ _ _ _ _ O). lia. Qed.

Lemma step_gap t s f : at_time t s -> nth_error fs t = Some f -> ginv t s -> ginv (S t) (f_post f).
Proof.
  intros At Hf [IO I1 IA]. assert (Lt : t < length fs) by (apply nth_error_Some; congruence). pose proof (Fr t f Hf) as F.
  destruct (next_frame t s f At Hf) as (Ts & rest & V'). destruct (video_first _ _ _ _ V' Ts) as (Tf & Uf & _ & S1 & S2 & S3).
  pose proof (tracker_state_good _ _ Tf) as Gf. pose proof (tracker_state_good _ _ Ts) as Gs.
  assert (Es : forall i, last_det (f_pre f) i = last_det s i /\ hit_counter (f_pre f) i = hit_counter s i /\ (tracked (f_pre f) i <-> tracked s i) /\ (known (f_pre f) i <-> known s i)).
  { intros i. unfold last_det, hit_counter, tracked, known. rewrite S1, S2, S3. tauto. }
  assert (Kn : forall i, tracked s i -> known s i). { intros i Hi. apply valid_tracked in Hi; [exact Hi|apply Gs]. }
  assert (Wh : forall i a b, own t s i a b -> who (last_det (f_pre f) i) = a). { intros i a b O. rewrite (proj1 (Es i)). apply (own_who t s i a b); [lia|exact O]. }
  (* the objects that can be matched *)
  assert (Ma : forall i, matchable c (f_pre f) i -> known s i /\ exists a b h, own t s i a b /\ crd a t = Some h /\ (0 <= h)%Z).
  { intros i (A & B & _). destruct (Es i) as (_ & Eh & Et & _). rewrite Eh in B. apply Et in A. split; [apply Kn, A|]. destruct (IO i (Kn i A)) as (a & b & O). exists a, b.
    destruct (ow_state _ _ _ _ _ O) as (h & Hc & _ & Hh). exists h. destruct (Hh A) as [Hh1 _]. rewrite Hh1 in B. auto. }
  assert (Mb : forall i a b h, known s i -> own t s i a b -> crd a t = Some h -> (0 <= h)%Z -> matchable c (f_pre f) i).
  { intros i a b h Hk O Hc Hh. destruct (ow_state _ _ _ _ _ O) as (h' & Hc' & Tr & Hh'). rewrite Hc in Hc'. injection Hc' as <-. assert (A : tracked s i) by (apply Tr; lia).
    destruct (Es i) as (_ & Eh & Et & _). split; [apply Et, A|]. rewrite Eh. split; [destruct (Hh' A) as [-> _]; exact Hh|]. rewrite Emax. congruence. }
  assert (Nt : forall a h, a < things -> crd a t = Some h -> vis t a = true -> (0 <= h)%Z).
  { intros a h Ha Hc Hv. destruct t as [|k]; [discriminate|]. apply (nt_credit _ _ _ _ _ NoRet a k h Ha); [lia|exact Hc|exact Hv]. }
  assert (RA : right_association nat who c f).
  { destruct f as [dets p ct pre post out]. cbn [f_dets f_period f_ct f_pre f_post f_out] in *. pose proof (gf_ct _ _ F) as Ec. cbn in Ec. subst ct.
    apply (call_right RNum_laws nat who c (on_points arr)); auto using rnd_fine'.
    - intros d d' o o' U E _ _. cbn. rewrite E. destruct U as (-> & _). reflexivity.
    - intros i j Hi Hj. destruct (Ma i Hi) as (Ki & ai & bi & hi & Oi & _). destruct (Ma j Hj) as (Kj & aj & bj & hj & Oj & _). rewrite (Wh _ _ _ Oi), (Wh _ _ _ Oj). intros <-. eapply I1; eauto.
    - constructor; [exact (gdets_who _ _ F ltac:(lia))|]. cbn [f_dets f_ct f_pre]. intros i r Hi Hr. destruct (Ma i Hi) as (Ki & ai & bi & hi & Oi & Hci & Hhi).
      destruct (proj1 (gdets_iff _ _ _ F) Hr) as (a & Ha & Va & ->). rewrite who_ref', (Wh _ _ _ Oi) by (auto; lia).
      destruct (begin_update c dets None pre) as [[al de] s1] eqn:Eb. cbn [snd].
      destruct (begin_update_effect _ _ _ _ _ _ _ (ti_nodup _ (proj1 Gf)) Eb) as (_ & _ & ST).
      assert (Hkept : In i (kept c pre)). { apply alive_kept. apply matchable_alive. exact Hi. }
      pose proof (sp_heap _ _ _ _ _ ST) as SH. cbn in SH. pose proof (sp_step _ _ _ _ _ ST i Hkept) as SS. cbn in SS. rewrite S1 in SS.
      destruct t as [|k]; [discriminate|]. destruct At as (g & Hg & ->).
      destruct (prediction_gap k g i ai bi hi Hg Oi Hci Hhi) as (P1 & P2 & P3).
      destruct (gf_shows _ _ F a Ha Va) as (D1 & _ & D3 & _). cbn [f_pre] in D1, D3.
      apply (near_gap k i a ai hi s1); rewrite ?SH, ?SS; auto; [lia|apply (ow_thing _ _ _ _ _ Oi)]. }
  (* what becomes of the objects *)
  assert (Old : forall i a b, known s i -> own t s i a b -> own (S t) (f_post f) i a b).
  { intros i a b Hk O. assert (O' := O). destruct O' as [Ha Hb Vb Cr Hi Hl St]. destruct St as (h & Hc & Tr & Hh).
    destruct (Es i) as (El & Eh & Et & Ek).
    assert (Lp : last_det (f_post f) i = ref (lastv a t) a).
    { destruct (vis t a) eqn:Va.
      - rewrite lastv_here by exact Va. apply (ra_taken _ _ _ _ RA i); [apply (Mb i a b h Hk O Hc); apply (Nt a h Ha Hc Va)|apply (gdets_iff _ _ _ F); eauto|]. rewrite (Wh _ _ _ O). apply who_ref'; [lia|exact Ha].
      - rewrite (ra_missed _ _ _ _ RA i); [|apply Ek, Hk|].
        + rewrite El, Hl. destruct t as [|k]; [lia|]. replace (S k - 1) with k by lia. rewrite lastv_skip by exact Va. reflexivity.
        + intros (_ & r & Hr & Er). apply (gdets_iff _ _ _ F) in Hr as (a' & Ha' & Va' & ->). rewrite who_ref', (Wh _ _ _ O) in Er by (auto; lia). congruence. }
    assert (Fresh : ~ In (last_det (f_pre f) i) (f_dets f)).
    { rewrite El, Hl. intros X. apply (gdets_iff _ _ _ F) in X as (a' & Ha' & _ & X). apply Hrefs in X; auto. pose proof (lastv_le vis a (t - 1)). lia. }
    assert (Seen : In (last_det (f_post f) i) (f_dets f) <-> vis t a = true).
    { rewrite Lp, (gdets_iff _ _ _ F). split.
      - intros (a' & Ha' & Va & X). apply Hrefs in X as [_ X]; auto. subst a'. exact Va.
      - intros Va. exists a. rewrite lastv_here by exact Va. auto. }
    constructor; auto.
    - intros j f' Hf' Hj. destruct (Nat.eq_dec j t) as [->|]; [rewrite Hf in Hf'; injection Hf' as <-; exact Lp|apply (Hi j f' Hf'); lia].
    - replace (S t - 1) with t by lia. exact Lp.
    - rewrite crd_S, Hc. eexists. split; [reflexivity|].
      destruct (Z.lt_ge_cases h (-1)) as [Hd|Hd].
      { (* gone *)
        assert (Nv : vis t a = false). { destruct (vis t a) eqn:Va; [|reflexivity]. pose proof (Nt a h Ha Hc Va). lia. } rewrite Nv.
        assert (Ng : ~ tracked (f_post f) i).
        { intros X. apply (tracked_pre RNum_laws _ _ _ _ _ _ _ _ rnd_fine' Gf Uf) in X; [|apply Ek, Hk]. apply kept_tracked in X. apply Et in X. apply Tr in X. lia. }
        split; [|intros X; contradiction]. split; [intros X; contradiction|intros; lia]. }
      assert (Ti : tracked s i) by (apply Tr; lia). destruct (Hh Ti) as [Hh1 Hh2].
      destruct (frame_fate RNum_laws c _ _ _ i V' rnd_fine' Gs Ti) as [Fa Co].
      destruct (Z.lt_ge_cases h 0) as [Hneg|Hpos].
      { (* dropped *)
        assert (Nv : vis t a = false). { destruct (vis t a) eqn:Va; [|reflexivity]. pose proof (Nt a h Ha Hc Va). lia. } rewrite Nv.
        assert (Ng : ~ tracked (f_post f) i).
        { intros X. apply (tracked_pre RNum_laws _ _ _ _ _ _ _ _ rnd_fine' Gf Uf) in X; [|apply Ek, Hk]. apply kept_iff in X as [_ X]. rewrite Emax, Eh in X. lia. }
        split; [|intros X; contradiction]. split; [intros X; contradiction|intros; lia]. }
      destruct (vis t a) eqn:Va.
      + destruct (fate_seen _ _ _ _ _ _ _ Fa Co (proj2 Seen eq_refl) Fresh) as [(F1 & F2 & F3 & _ & _ & _ & F7)|(_ & _ & X & _)]; [|contradiction].
        assert (Tp : tracked (f_post f) i) by (destruct F7 as [|(_ & _ & X)]; [assumption|contradiction]).
        rewrite Eh, Hh1, (gf_period _ _ F) in F2. replace (h - 1 + 2 * 1)%Z with (h + 1)%Z in F2 by lia.
        split; [split; [intros _; lia|intros _; exact Tp]|]. intros _. split; [exact F2|].
        rewrite F3, S1, started_S, crd_S, Hc, Va, <- F2.
        destruct (o_initializing (s_store s i)); cbn [andb].
        * destruct (Z.ltb_spec delay (hit_counter (f_post f) i)) as [X|X]; cbn [negb]; split; try reflexivity; try discriminate.
          -- intros _. right. eauto.
          -- intros [Y|(h' & E & Y)]; [apply Hh2 in Y; discriminate|]. injection E as <-. lia.
        * split; [intros _; left; apply Hh2; reflexivity|reflexivity].
      + destruct (fate_unseen _ _ _ _ _ _ _ Fa) as [(X & _)|(_ & Tp & U)].
        * intros X. apply Seen in X. discriminate.
        * destruct X. apply kept_iff. rewrite Emax, Eh, Hh1. split; [apply Et, Ti|lia].
        * assert (Hp : hit_counter (f_post f) i = (h - 1)%Z /\ o_initializing (s_store (f_post f) i) = o_initializing (s_store s i)).
          { destruct U as [mm U]. unfold hit_counter. rewrite U, (gf_ct _ _ F), S1. cbn [obj_update_ct set_min_distance o_hit o_initializing]. rewrite <- Hh1. unfold hit_counter, tracker_step. cbn. auto. }
          destruct Hp as [Hp1 Hp2]. split; [split; [intros _; lia|intros _; exact Tp]|]. intros _. split; [exact Hp1|]. rewrite Hp2, Hh2, started_S, crd_S, Hc, Va. split; [auto|].
          intros [Y|(h' & E & Y)]; [exact Y|]. injection E as <-. exists t, h. repeat split; auto. lia. }
  (* the new objects *)
  assert (New : forall i, s_icount (f_pre f) < i <= s_icount (f_post f) -> exists a, own (S t) (f_post f) i a t /\ crd a t = None).
  { intros i Hi. destruct (ra_only_new _ _ _ _ RA i Hi) as [Hd Hno]. destruct (proj1 (gdets_iff _ _ _ F) Hd) as (a & Ha & Va & Er).
    assert (Nc : crd a t = None).
    { destruct (crd a t) as [h|] eqn:Hc; [exfalso|reflexivity]. destruct (IA a Ha ltac:(congruence)) as (j & b & Kj & Oj). apply (Hno j).
      - apply (Mb j a b h Kj Oj Hc). apply (Nt a h Ha Hc Va).
      - rewrite (Wh _ _ _ Oj), Er. symmetry. apply who_ref'; [lia|exact Ha]. }
    exists a. split; [|exact Nc]. destruct (new_object RNum_laws _ _ _ _ _ _ _ _ rnd_fine' Gf Uf Hi) as (Ti & r & _ & NR).
    assert (Lp : last_det (f_post f) i = ref (lastv a t) a) by (rewrite lastv_here by exact Va; exact Er).
    constructor; auto.
    - intros fb Hb. rewrite Hf in Hb. injection Hb as <-. exact Hi.
    - intros j f' Hf' Hj. replace j with t in * by lia. rewrite Hf in Hf'. injection Hf' as <-. exact Lp.
    - replace (S t - 1) with t by lia. exact Lp.
    - rewrite crd_S, Nc, Va. exists 1%Z. split; [reflexivity|]. split; [split; [intros _; lia|intros _; exact Ti]|]. intros _. unfold hit_counter. rewrite (nr_hit _ _ _ _ _ _ _ NR), (nr_init _ _ _ _ _ _ _ NR), (gf_period _ _ F).
      split; [reflexivity|]. rewrite started_S, crd_S, Nc, Va. split.
      + intros X. apply Z.leb_gt in X. right. exists 1%Z. split; [reflexivity|lia].
      + intros [(j & h & Hj & Ec & _)|(h & Ec & Hlt)].
        * exfalso. apply (crd_grows vis cap a j (t - j)); [congruence|]. replace (j + (t - j)) with t by lia. exact Nc.
        * injection Ec as <-. apply Z.leb_gt. exact Hlt. }
  assert (Ic : s_icount s <= s_icount (f_post f)). { rewrite <- S3. exact (update_icount _ _ _ _ _ _ _ Gf Uf). }
  assert (Split : forall i, known (f_post f) i -> known s i \/ s_icount (f_pre f) < i <= s_icount (f_post f)) by (unfold known; intros i Hi; rewrite S3; lia).
  assert (OwnF : forall i a b a' b', own (S t) (f_post f) i a b -> own (S t) (f_post f) i a' b' -> a = a').
  { intros i a b a' b' O O'. rewrite <- (own_who (S t) _ i a b ltac:(lia) O). apply (own_who (S t) _ i a' b' ltac:(lia) O'). }
  assert (Seen' : forall i a b, own t s i a b -> crd a t <> None). { intros i a b O. destruct (ow_state _ _ _ _ _ O) as (h & Hc & _). congruence. }
  constructor.
  - intros i Hi. destruct (Split i Hi) as [Hk|Hk].
    + destruct (IO i Hk) as (a & b & O). exists a, b. apply Old; auto.
    + destruct (New i Hk) as (a & O & _). eauto.
  - intros i j a b b' Hi Hj Oi Oj. destruct (Split i Hi) as [Ki|Ki], (Split j Hj) as [Kj|Kj].
    + destruct (IO i Ki) as (ai & bi & Pi). destruct (IO j Kj) as (aj & bj & Pj).
      pose proof (OwnF i _ _ _ _ Oi (Old i ai bi Ki Pi)) as Ei. pose proof (OwnF j _ _ _ _ Oj (Old j aj bj Kj Pj)) as Ej. subst ai aj. eapply I1; eauto.
    + exfalso. destruct (IO i Ki) as (ai & bi & Pi). destruct (New j Kj) as (aj & Pj & Nj). pose proof (OwnF i _ _ _ _ Oi (Old i ai bi Ki Pi)) as Ei. pose proof (OwnF j _ _ _ _ Oj Pj) as Ej. subst ai aj. apply (Seen' _ _ _ Pi Nj).
    + exfalso. destruct (IO j Kj) as (aj & bj & Pj). destruct (New i Ki) as (ai & Pi & Ni). pose proof (OwnF j _ _ _ _ Oj (Old j aj bj Kj Pj)) as Ej. pose proof (OwnF i _ _ _ _ Oi Pi) as Ei. subst ai aj. apply (Seen' _ _ _ Pj Ni).
    + destruct (New i Ki) as (ai & Pi & Ni). destruct (New j Kj) as (aj & Pj & Nj). pose proof (OwnF i _ _ _ _ Oi Pi) as Ei. pose proof (OwnF j _ _ _ _ Oj Pj) as Ej. subst ai aj.
      assert (Mx : forall l, own (S t) (f_post f) l a t -> matchable c (f_post f) l).
      { intros l Ol. destruct (ow_state _ _ _ _ _ Ol) as (h & Hc & Tr & Hh). rewrite crd_S, Ni in Hc. destruct (vis t a); [|discriminate]. injection Hc as <-.
        assert (Tl : tracked (f_post f) l) by (apply Tr; lia). split; [exact Tl|]. split; [destruct (Hh Tl) as [-> _]; lia|]. rewrite Emax. congruence. }
      apply (ra_one_each _ _ _ _ RA); auto. rewrite (own_who (S t) _ i a b), (own_who (S t) _ j a b') by (auto; lia). reflexivity.
  - intros a Ha Hc. destruct (crd a t) as [h|] eqn:Ht.
    + destruct (IA a Ha ltac:(congruence)) as (i & b & Ki & Oi). exists i, b. split; [unfold known in *; lia|apply Old; auto].
    + rewrite crd_S, Ht in Hc. destruct (vis t a) eqn:Va; [|congruence].
      destruct (ra_new _ _ _ _ RA (ref t a)) as (i & Hi & _ & Er).
      { apply (gdets_iff _ _ _ F). eauto. }
      { intros j Hj Ew. destruct (Ma j Hj) as (Kj & aj & bj & hj & Oj & Hcj & _). rewrite (Wh _ _ _ Oj), who_ref' in Ew by (auto; lia). subst aj. congruence. }
      destruct (New i Hi) as (a' & O & _). exists i, t. split; [unfold known; lia|].
      assert (a' = a). { pose proof (own_who (S t) _ i a' t ltac:(lia) O) as X. rewrite Er, who_ref' in X by (auto; lia). auto. } subst a'. exact O.
Qed.

Lemma all_times t s : at_time t s -> ginv t s.
Proof.
  revert s. induction t as [|k IH]; intros s At.
  - cbn in At. subst s. constructor.
    + intros i Hi. unfold known in Hi. rewrite I0 in Hi. lia.
    + intros i j a b b' Hi. unfold known in Hi. rewrite I0 in Hi. lia.
    + intros a _ X. destruct X. reflexivity.
  - destruct At as (f & Hf & ->). assert (Lk : k < length fs) by (apply nth_error_Some; congruence).
    assert (X : exists s, at_time k s). { destruct k as [|k']; [exists s0; reflexivity|]. destruct (nth_error fs k') as [g|] eqn:Eg; [|apply nth_error_None in Eg; lia]. exists (f_post g), g. auto. }
    destruct X as (s & At). exact (step_gap k s f At Hf (IH s At)).
Qed.

Lemma icount_frames k f d g : nth_error fs k = Some f -> nth_error fs (k + d) = Some g -> s_icount (f_post f) <= s_icount (f_post g).
Proof.
  intros Hf. revert g. induction d as [|d IHd]; intros g Hg; [rewrite Nat.add_0_r, Hf in Hg; injection Hg as <-; lia|].
  destruct (nth_error fs (k + d)) as [g'|] eqn:Eg; [|apply nth_error_None in Eg; assert (k + S d < length fs) by (apply nth_error_Some; congruence); lia].
  rewrite Nat.add_succ_r in Hg. destruct (next_frame (S (k + d)) (f_post g') g) as (Ts & rest & V'); [exists g'; auto|exact Hg|]. destruct (video_first _ _ _ _ V' Ts) as (Tf & Uf & _ & _ & _ & S3).
  pose proof (update_icount _ _ _ _ _ _ _ (tracker_state_good _ _ Tf) Uf). specialize (IHd g' eq_refl). lia.
Qed.

Theorem scene_gaps_followed : exists object_of, followed_with_gaps n dim things x v ref vis cap delay K object_of fs.
Proof.
  pose proof icount_frames as IF.
  assert (Last : exists s, at_time (length fs) s).
  { destruct (length fs) as [|k] eqn:E; [exists s0; reflexivity|]. destruct (nth_error fs k) as [g|] eqn:Eg; [|apply nth_error_None in Eg; lia]. exists (f_post g), g. auto. }
  destruct Last as (sl & Al). pose proof (all_times _ _ Al) as IL.
  set (ob := fun a => match find (fun i => Nat.eqb (who (last_det sl i)) a) (seq 1 (s_icount sl)) with Some i => i | None => 0 end).
  assert (At : forall k f, nth_error fs k = Some f -> at_time (S k) (f_post f)) by (intros k f Hf; exists f; auto).
  assert (Up : forall k f i, nth_error fs k = Some f -> known (f_post f) i -> known sl i).
  { intros k f i Hf [H1 H2]. split; [exact H1|]. destruct (length fs) as [|m] eqn:El; [destruct fs; [destruct k|]; discriminate|]. destruct Al as (g & Hg & ->).
    assert (Hk : k <= m) by (assert (k < length fs) by (apply nth_error_Some; congruence); lia).
    pose proof (IF k f (m - k) g Hf) as Mono. replace (k + (m - k)) with m in Mono by lia. specialize (Mono Hg). lia. }
  assert (Obj : forall i a b, known sl i -> own (length fs) sl i a b -> ob a = i).
  { intros i a b Hk O. unfold ob. destruct (find _ _) as [j|] eqn:E.
    - apply find_some in E as [Hj E]. apply in_seq in Hj. apply Nat.eqb_eq in E. assert (Kj : known sl j) by (unfold known; lia). destruct (gi_own _ _ IL j Kj) as (a' & b' & O').
      rewrite (own_who _ _ _ _ _ Lfs O') in E. subst a'. eapply (gi_one _ _ IL); eauto.
    - exfalso. pose proof (find_none _ _ E i) as X. unfold known in Hk. rewrite in_seq in X. specialize (X ltac:(lia)). rewrite (own_who _ _ _ _ _ Lfs O), Nat.eqb_refl in X. discriminate. }
  assert (Back : forall k f i a b, nth_error fs k = Some f -> known (f_post f) i -> own (S k) (f_post f) i a b -> ob a = i).
  { intros k f i a b Hf Hk O. pose proof (Up k f i Hf Hk) as Kl. destruct (gi_own _ _ IL i Kl) as (a' & b' & O').
    enough (a = a') by (subst a'; exact (Obj i a b' Kl O')).
    assert (Lk : k < length fs) by (apply nth_error_Some; congruence). pose proof (ow_thing _ _ _ _ _ O) as Ha. pose proof (ow_thing _ _ _ _ _ O') as Ha'. pose proof (ow_birth _ _ _ _ _ O') as Hb'. pose proof (ow_birth _ _ _ _ _ O) as Hb.
    destruct (le_lt_dec b' k) as [L|L].
    - pose proof (ow_history _ _ _ _ _ O' k f Hf ltac:(lia)) as X. pose proof (ow_history _ _ _ _ _ O k f Hf ltac:(lia)) as Y. rewrite X in Y. apply Hrefs in Y; auto. symmetry. apply Y.
    - exfalso. destruct (nth_error fs b') as [fb|] eqn:Eb; [|apply nth_error_None in Eb; lia]. pose proof (ow_created _ _ _ _ _ O' fb Eb) as Cr.
      assert (Kb : s_icount (f_post f) <= s_icount (f_pre fb)).
      { destruct b' as [|b'']; [lia|]. destruct (nth_error fs b'') as [g|] eqn:Eg; [|apply nth_error_None in Eg; assert (S b'' < length fs) by (apply nth_error_Some; congruence); lia].
        pose proof (IF k f (b'' - k) g Hf) as Mono. replace (k + (b'' - k)) with b'' in Mono by lia. specialize (Mono Eg).
        destruct (next_frame (S b'') (f_post g) fb) as (Ts & rest & V'); [exists g; auto|exact Eb|]. destruct (video_first _ _ _ _ V' Ts) as (_ & _ & _ & _ & _ & S3). lia. }
      destruct Hk as [_ Hk]. lia. }
  assert (Own : forall k f a h, nth_error fs k = Some f -> a < things -> credit vis cap a k = Some h -> exists b, known (f_post f) (ob a) /\ own (S k) (f_post f) (ob a) a b).
  { intros k f a h Hf Ha Hc. pose proof (all_times _ _ (At k f Hf)) as I. destruct (gi_all _ _ I a Ha) as (i & b & Ki & Oi); [cbn; congruence|]. exists b. rewrite (Back k f i a b Hf Ki Oi). auto. }
  assert (Kn : forall k f i, nth_error fs k = Some f -> tracked (f_post f) i -> known (f_post f) i).
  { intros k f i Hf Hi. apply valid_tracked in Hi; [exact Hi|]. destruct (frame_ok n dim Hn Hdim c s0 fs k f V Ht0 Hf) as [Tf Uf].
    assert (X : tracker_state c (f_post f)) by (change (f_post f) with (fst (f_post f, @Ret (list nat) (f_out f))); rewrite <- Uf; apply ts_update; exact Tf). apply (proj1 (tracker_state_good _ _ X)). }
  exists ob. constructor.
  - intros a b k Ha Hb Hk Hca Hcb E. destruct (nth_error fs k) as [f|] eqn:Ef; [|apply nth_error_None in Ef; lia].
    destruct (credit vis cap a k) as [ha|] eqn:Ea; [|congruence]. destruct (credit vis cap b k) as [hb|] eqn:Eb; [|congruence].
    destruct (Own k f a ha Ef Ha Ea) as (ba & _ & Oa). destruct (Own k f b hb Ef Hb Eb) as (bb & _ & Ob). rewrite E in Oa.
    assert (Lk : S k <= calls) by lia. pose proof (own_who _ _ _ _ _ Lk Oa) as X. pose proof (own_who _ _ _ _ _ Lk Ob) as Y. congruence.
  - intros k f Hf. assert (Lk : S k <= calls) by (assert (k < length fs) by (apply nth_error_Some; congruence); lia). pose proof (all_times _ _ (At k f Hf)) as I.
    rewrite <- (seq_length (s_icount (f_post f)) 1). rewrite <- (map_length (fun i => who (last_det (f_post f) i))). apply Permutation_length. apply NoDup_Permutation.
    + apply nodup_map; [|apply seq_NoDup]. intros i j Hi Hj E. apply in_seq in Hi, Hj. assert (Ki : known (f_post f) i) by (unfold known; lia). assert (Kj : known (f_post f) j) by (unfold known; lia).
      destruct (gi_own _ _ I i Ki) as (a & b & O). destruct (gi_own _ _ I j Kj) as (a' & b' & O'). rewrite (own_who _ _ _ _ _ Lk O), (own_who _ _ _ _ _ Lk O') in E. subst a'. eapply (gi_one _ _ I); eauto.
    + apply NoDup_filter, seq_NoDup.
    + intros a. rewrite in_map_iff, filter_In, in_seq. split.
      * intros (i & <- & Hi). apply in_seq in Hi. assert (Ki : known (f_post f) i) by (unfold known; lia). destruct (gi_own _ _ I i Ki) as (a & b & O). rewrite (own_who _ _ _ _ _ Lk O).
        destruct (ow_state _ _ _ _ _ O) as (h & Hc & _). cbn in Hc. rewrite Hc. pose proof (ow_thing _ _ _ _ _ O). split; [lia|reflexivity].
      * intros [Ha Hc]. destruct (gi_all _ _ I a ltac:(lia)) as (i & b & Ki & Oi); [cbn; destruct (credit vis cap a k); [discriminate|discriminate Hc]|]. exists i. split; [apply (own_who _ _ _ _ _ Lk Oi)|]. apply in_seq. unfold known in Ki. lia.
  - intros k f i Hf. pose proof (all_times _ _ (At k f Hf)) as I. split.
    + intros Ti. pose proof (Kn k f i Hf Ti) as Ki. destruct (gi_own _ _ I i Ki) as (a & b & O). destruct (ow_state _ _ _ _ _ O) as (h & Hc & Tr & _). exists a, h.
      split; [apply (ow_thing _ _ _ _ _ O)|]. split; [exact Hc|]. split; [apply Tr, Ti|]. symmetry. apply (Back k f i a b); auto.
    + intros (a & h & Ha & Hc & Hh & ->). destruct (Own k f a h Hf Ha Hc) as (b & _ & O). destruct (ow_state _ _ _ _ _ O) as (h' & Hc' & Tr & _). cbn in Hc'. rewrite Hc in Hc'. injection Hc' as <-. apply Tr, Hh.
  - intros k f a Hf Ha Hv. destruct (credit vis cap a k) as [h|] eqn:Hc; [|destruct (crd_visible vis cap a k Hv Hc)].
    destruct (Own k f a h Hf Ha Hc) as (b & _ & O). rewrite (ow_last _ _ _ _ _ O). replace (S k - 1) with k by lia. rewrite lastv_here by exact Hv. reflexivity.
  - intros k f a h Hf Ha Hc Hv. assert (Hc' : credit vis cap a (S k) = Some (h - 1)%Z) by (cbn [credit]; rewrite Hc, Hv; reflexivity).
    destruct (Own (S k) f a _ Hf Ha Hc') as (b & _ & O). rewrite (ow_last _ _ _ _ _ O). replace (S (S k) - 1) with (S k) by lia. rewrite lastv_skip by exact Hv.
    destruct (nth_error fs k) as [g|] eqn:Eg; [|apply nth_error_None in Eg; assert (S k < length fs) by (apply nth_error_Some; congruence); lia].
    destruct (Own k g a h Eg Ha Hc) as (b' & _ & O'). destruct (next_frame (S k) (f_post g) f) as (Ts & rest & V'); [exists g; auto|exact Hf|]. destruct (video_first _ _ _ _ V' Ts) as (_ & _ & _ & S1 & _).
    unfold last_det at 1. rewrite S1. change (ref (lastv a k) a = last_det (f_post g) (ob a)). rewrite (ow_last _ _ _ _ _ O'). replace (S k - 1) with k by lia. reflexivity.
  - intros k f a h Hf Ha Hc Hh Hv. assert (Hc' : credit vis cap a (S k) = Some (h - 1)%Z) by (cbn [credit]; rewrite Hc, Hv; reflexivity).
    destruct (Own (S k) f a _ Hf Ha Hc') as (b & _ & O). destruct (nth_error fs k) as [g|] eqn:Eg; [|apply nth_error_None in Eg; assert (S k < length fs) by (apply nth_error_Some; congruence); lia].
    destruct (Own k g a h Eg Ha Hc) as (b' & Kg & O'). destruct (prediction_gap k g (ob a) a b' h Eg O' Hc Hh) as (P1 & _ & P3).
    destruct (next_frame (S k) (f_post g) f) as (Ts & rest & V'); [exists g; auto|exact Hf|]. destruct (video_first _ _ _ _ V' Ts) as (_ & _ & _ & S1 & S2 & S3).
    destruct (ow_state _ _ _ _ _ O') as (h' & E' & Tr & St). cbn in E'. rewrite Hc in E'. injection E' as <-. assert (Tg : tracked (f_post g) (ob a)) by (apply Tr; lia).
    destruct (frame_fate RNum_laws c _ _ _ (ob a) V' rnd_fine' (tracker_state_good _ _ Ts) Tg) as [Fa Co].
    assert (Un : ~ In (last_det (f_post f) (ob a)) (f_dets f)).
    { rewrite (ow_last _ _ _ _ _ O). intros X. apply (gdets_iff _ _ _ (Fr _ _ Hf)) in X as (a' & Ha' & Va & X). apply Hrefs in X as [X1 X2]; auto. subst a'. congruence. }
    destruct (fate_unseen _ _ _ _ _ _ _ Fa Un) as [(X & _)|(_ & _ & mm & U)].
    { destruct X. apply kept_iff. unfold hit_counter, tracked. rewrite Emax, S1, S2. split; [exact Tg|]. destruct (St Tg) as [X _]. unfold hit_counter in X. rewrite X. lia. }
    assert (Ee : estimate (s_store (f_post f) (ob a)) = estimate (tracker_step (s_store (f_post g) (ob a)))) by (rewrite U, (gf_ct _ _ (Fr _ _ Hf)), S1; reflexivity).
    rewrite Ee. auto.
  - intros k f a h Hf Ha Hc Hh. destruct (Own k f a h Hf Ha Hc) as (b & _ & O). destruct (ow_state _ _ _ _ _ O) as (h' & Hc' & Tr & St). cbn in Hc'. rewrite Hc in Hc'. injection Hc' as <-. apply St, Tr, Hh.
  - intros k f i Hf. destruct (frame_ok n dim Hn Hdim c s0 fs k f V Ht0 Hf) as [Tf Uf]. pose proof (all_times _ _ (At k f Hf)) as I.
    destruct (update_summary RNum_laws _ _ _ _ _ _ _ rnd_fine' (proj1 (tracker_state_good _ _ Tf)) Uf) as (_ & _ & _ & _ & _ & ->). rewrite active_iff.
    assert (Sta : forall a, started a (S k) <-> exists k' h', k' <= k /\ credit vis cap a k' = Some h' /\ (delay < h')%Z).
    { intros a. split.
      - intros (j & h & Hj & E & H). destruct j as [|j]; [discriminate|]. exists j, h. repeat split; auto. lia.
      - intros (j & h & Hj & E & H). exists (S j), h. repeat split; auto. lia. }
    split.
    + intros (Ti & Hin & Hh). pose proof (Kn k f i Hf Ti) as Ki. destruct (gi_own _ _ I i Ki) as (a & b & O). destruct (ow_state _ _ _ _ _ O) as (h & Hc & Tr & St). destruct (St Ti) as [Eh Es]. rewrite Eh in Hh.
      exists a, h. split; [apply (ow_thing _ _ _ _ _ O)|]. split; [exact Hc|]. split; [exact Hh|]. split; [symmetry; apply (Back k f i a b); auto|]. apply Sta, Es, Hin.
    + intros (a & h & Ha & Hc & Hh & -> & Hs). destruct (Own k f a h Hf Ha Hc) as (b & _ & O). destruct (ow_state _ _ _ _ _ O) as (h' & Hc' & Tr & St). cbn in Hc'. rewrite Hc in Hc'. injection Hc' as <-.
      assert (Ti : tracked (f_post f) (ob a)) by (apply Tr; lia). destruct (St Ti) as [Eh Es]. split; [exact Ti|]. split; [apply Es, Sta, Hs|]. rewrite Eh. exact Hh.
Qed.
End Scene.

Section Inputs.
Variables (n dim things : nat) (x v : nat -> points RNum) (lab : nat -> label) (ref : nat -> nat -> nat) (vis : nat -> nat -> bool).
Lemma gap_once ins : (forall k k' a a', a < things -> a' < things -> ref k a = ref k' a' -> k = k' /\ a = a') ->
  forall off, (forall k y, nth_error ins k = Some y -> Permutation (map fst (in_new y)) (map (ref (off + k)) (filter (vis (off + k)) (seq 0 things)))) ->
  NoDup (flat_map (fun y : input RNum => map fst (in_new y)) ins) /\
  forall r, In r (flat_map (fun y => map fst (in_new y)) ins) -> exists k a, off <= k /\ a < things /\ r = ref k a.
Proof.
  intros Hr. induction ins as [|y ins IH]; intros off H; cbn; [split; [constructor|intros r []]|].
  destruct (IH (S off)) as [N1 N2]; [intros k z Hz; replace (S off + k) with (off + S k) by lia; exact (H (S k) z Hz)|].
  pose proof (H 0 y eq_refl) as P. rewrite Nat.add_0_r in P.
  assert (Iy : forall r, In r (map fst (in_new y)) -> exists a, a < things /\ r = ref off a).
  { intros r X. apply (Permutation_in _ P) in X. apply in_map_iff in X as (a & <- & Ha). apply filter_In in Ha as [Ha _]. apply in_seq in Ha. exists a. split; [lia|reflexivity]. }
  split.
  - apply NoDup_app_intro; [|exact N1|].
    + eapply Permutation_NoDup; [symmetry; exact P|]. apply nodup_map; [|apply NoDup_filter, seq_NoDup].
      intros a b Ha Hb E. apply filter_In in Ha as [Ha _], Hb as [Hb _]. apply in_seq in Ha, Hb. apply Hr in E; [apply E|lia..].
    + intros r X Y. destruct (Iy r X) as (a & Ha & ->). destruct (N2 _ Y) as (k & b & Hk & Hb & E). apply Hr in E; auto. lia.
  - intros r X. apply in_app_iff in X as [X|X]; [destruct (Iy r X) as (a & Ha & ->); eauto|]. destruct (N2 r X) as (k & a & Hk & Ha & E). exists k, a. repeat split; auto. lia.
Qed.

Lemma gap_calls dthr ins : scene_with_gaps n dim things x v lab ref vis dthr ins -> well_formed_calls n dim ins.
Proof.
  intros S. constructor.
  - apply (gap_once ins (og_refs _ _ _ _ _ _ _ _ _ _ S) 0). intros k y Hy. apply (og_call _ _ _ _ _ _ _ _ _ _ S k y Hy).
  - intros y r d Hy Hr. apply In_nth_error in Hy as [k Hy]. destruct (og_call _ _ _ _ _ _ _ _ _ _ S k y Hy) as (_ & _ & _ & P).
    assert (X : In r (map fst (in_new y))) by (apply in_map_iff; exists (r, d); auto). apply (Permutation_in _ P), in_map_iff in X as (a & <- & Ha). apply filter_In in Ha as [Ha _]. apply in_seq in Ha.
    destruct (og_shape _ _ _ _ _ _ _ _ _ _ S a ltac:(lia)) as [Sx Sv]. destruct (og_detection _ _ _ _ _ _ _ _ _ _ S k y a d Hy ltac:(lia) Hr) as (D1 & D2 & _ & D4 & _).
    unfold det_shape. rewrite D1, D2. split; [apply position_rect; auto|]. split; [apply position_rect; auto|]. exact D4.
  - intros before y after r -> Hr. assert (Hy : nth_error (before ++ y :: after) (length before) = Some y) by (rewrite nth_error_app2, Nat.sub_diag by lia; reflexivity).
    destruct (og_call _ _ _ _ _ _ _ _ _ _ S _ y Hy) as (_ & _ & P & Q). rewrite flat_map_app. apply in_app_iff. right. cbn. rewrite app_nil_r.
    apply (Permutation_in _ (Permutation_sym Q)), (Permutation_in _ P), Hr.
  - intros y T Hy E. apply In_nth_error in Hy as [k Hy]. destruct (og_call _ _ _ _ _ _ _ _ _ _ S k y Hy) as (_ & X & _). congruence.
Qed.

Lemma gap_frames {FO : filter_ops RNum} (c : tconf FO) ins s fs : scene_with_gaps n dim things x v lab ref vis (tc_det_thr c) ins -> play c s ins = Some fs ->
  forall k f, nth_error fs k = Some f -> gap_frame n things x v lab ref vis c k f.
Proof.
  intros S E k f Hf. destruct (play_inputs c ins s fs k f E Hf) as (y & h & Hy & F1 & F2 & F3 & F4). destruct (og_call _ _ _ _ _ _ _ _ _ _ S k y Hy) as (S1 & S2 & S3 & S4).
  constructor; [rewrite F2; exact S1|rewrite F3; exact S2|rewrite F1; exact S3|]. intros a Ha Va. rewrite F4.
  assert (Nd : NoDup (map fst (in_new y))).
  { eapply Permutation_NoDup; [symmetry; exact S4|]. apply nodup_map; [|apply NoDup_filter, seq_NoDup]. intros p q Hp Hq X. apply filter_In in Hp as [Hp _], Hq as [Hq _]. apply in_seq in Hp, Hq. apply (og_refs _ _ _ _ _ _ _ _ _ _ S) in X; [apply X|lia..]. }
  destruct (put_new (in_new y) Nd h (ref k a)) as (d & Hd & ->); [apply (Permutation_in _ (Permutation_sym S4)), in_map, filter_In; split; [apply in_seq; lia|exact Va]|].
  exact (og_detection _ _ _ _ _ _ _ _ _ _ S k y a d Hy Ha Hd).
Qed.
End Inputs.

Section Main.
Context {FO : filter_ops RNum}.
Variables (wf : nat -> fstate FO -> Prop) (same : fstate FO -> fstate FO -> Prop).
Hypothesis Rg : regular FO wf.
Hypothesis W : rewritable FO wf same.

Theorem gaps_followed (G : nat) (cap : Z) (C K : R) : coasts_within FO G (Z.to_nat cap) C -> (0 <= K)%R -> (C <= K * K)%R -> follows_gaps FO G cap K.
Proof.
  intros Pw HK HC n dim things x v lab ref vis arr thr c ins heap g dummy Hn Hd Ha Tc Emax Ecap Sc Nr Ap.
  destruct (builtin_scales n dim arr Hn Ha) as [M S].
  destruct (new_tracker_returns RNum_laws n dim wf Hn Hd Rg c ins heap g dummy (scene_usable n dim arr thr c M Tc) (gap_calls n dim things x v lab ref vis _ ins Sc)) as (fs & E & L).
  pose proof (play_video _ _ _ _ E) as V. pose proof (gap_frames _ _ _ _ _ _ _ _ c ins _ fs Sc E) as F.
  destruct Tc as [E1 E2 E3 E4 E5]. subst cap.
  destruct (scene_gaps_followed wf same C K thr G Rg W HK HC n dim things x v lab ref vis arr Hn Hd M S c Pw E1 E2 E3 E4 Emax E5
    (og_shape _ _ _ _ _ _ _ _ _ _ Sc) (og_refs _ _ _ _ _ _ _ _ _ _ Sc) (length ins) Nr Ap (new_tracker heap g dummy) fs) as [ob A]; auto; [constructor|lia|].
  exists fs, ob. auto.
Qed.
End Main.

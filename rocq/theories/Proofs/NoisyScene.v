(** C91: things that move anyhow and are detected in every call. *)
From Coq Require Import ZArith Reals Lra Lia List Arith Permutation.
From Verif Require Import Model.Num Model.Base Model.Matching Model.Filter Model.Distances Model.Tracker Spec.MatchingSpec Spec.BuiltinSpec Spec.KalmanSpec Spec.PointSpec Spec.PhasesSpec Spec.FollowSpec Spec.GroundTruthSpec Spec.ExampleVideo Spec.ProgressSpec Spec.SceneSpec.
From Verif Require Import Proofs.NumLaws Proofs.TrackerFrame Proofs.Identity Proofs.Effect Proofs.CallEffect Proofs.CallProps Proofs.CallTheorems Proofs.CallTheorems2 Proofs.CallTheorems3 Proofs.PointProofs Proofs.ReplayProofs Proofs.FollowTracker Proofs.GroundTruth Proofs.Progress Proofs.SceneDistances.
From Verif Require Import Spec.CallSpec.
Import ListNotations.
Local Open Scope nat_scope.

From Verif Require Import Spec.NoisySpec Proofs.NoisyTracker Proofs.SceneProofs.
From Verif Require Import Spec.CallSpec.

Lemma nth_repeat_lt {A} (a d : A) m k : k < m -> nth k (repeat a m) d = a.
Proof. revert k. induction m as [|m IH]; intros [|k] H; cbn; auto; try lia. apply IH. lia. Qed.
(** Arrays that differ by at most [reach]. *)
Lemma full_shaped n dim reach : shaped n dim (full n dim reach).
Proof. unfold full. split; [apply repeat_length|]. apply Forall_forall. intros r Hr. apply repeat_spec in Hr as ->. apply repeat_length. Qed.
Lemma full_entry n dim reach i j : i < n -> j < dim -> entry (full n dim reach) i j = reach.
Proof. intros Hi Hj. unfold entry, full. rewrite nth_repeat_lt by exact Hi. apply nth_repeat_lt. exact Hj. Qed.
Lemma near_full n dim arr reach p q (e sp : R) : metric n dim arr -> scales n dim arr -> rectangular n dim p -> rectangular n dim q ->
  (forall i j, i < n -> j < dim -> (Rabs (entry q i j - entry p i j) <= reach)%R) ->
  arr p q = Ret (@DFin RNum e) -> arr (full n dim reach) (full n dim 0) = Ret (@DFin RNum sp) -> (e <= sp)%R.
Proof.
  intros Met Sca Hp Hq H E Es. rewrite <- (Rmult_1_l sp).
  eapply (Sca 1%R p q (full n dim reach) (full n dim 0)); [lra|exact Hp|exact Hq|apply full_shaped|apply full_shaped| |exact E|exact Es].
  intros i j Hi Hj. rewrite !full_entry by auto. rewrite Rmult_1_l, Rminus_0_r, Rabs_minus_sym. eapply Rle_trans; [apply H; auto|apply Rle_abs].
Qed.
Section Scene.
Context {FO : filter_ops RNum}.
Variables (wf : nat -> fstate FO -> Prop) (same : fstate FO -> fstate FO -> Prop) (moves : (nat -> R) -> Prop) (eps reach thr : R) (bound : nat -> R).
Hypothesis Rg : regular FO wf.
Hypothesis W : rewritable FO wf same.
Hypothesis Pw : keeps_near FO moves eps bound.
Hypothesis HB : forall k, (bound k + eps <= reach)%R.
Variables (n dim things : nat) (truth : nat -> nat -> nat -> nat -> R) (pos : nat -> nat -> points RNum) (lab : nat -> label) (ref : nat -> nat -> nat).
Variable arr : points RNum -> points RNum -> result (dval RNum).
Hypothesis Hn : 0 < n.
Hypothesis Hdim : 0 < dim.
Hypothesis Met : metric n dim arr.
Hypothesis Sca : scales n dim arr.
Variable c : tconf FO.
Hypothesis Edist : tc_distance c = ScalarDistance (on_points arr).
Hypothesis Ethr : tc_threshold c = @DFin RNum thr.
Hypothesis Ernd : forall d, tc_rnd c d = d.
Hypothesis Ereid : tc_reid_distance c = None.
Hypothesis Edelay : (0 <= tc_delay c < tc_hit_counter_max c)%Z.
Hypothesis Hshape : forall a k, a < things -> rectangular n dim (pos a k).
Hypothesis Hmoves : forall a i j, a < things -> i < n -> j < dim -> moves (truth a i j).
Hypothesis Hnear : forall a i j k, a < things -> i < n -> j < dim -> (Rabs (entry (pos a k) i j - truth a i j k) <= eps)%R.
Hypothesis Hrefs : forall k k' a a', a < things -> a' < things -> ref k a = ref k' a' -> k = k' /\ a = a'.

Definition shows (a k : nat) (d : detection RNum) : Prop :=
  d_points d = pos a k /\ d_absolute_points d = pos a k /\ d_label d = lab a /\
  (forall sc, d_scores d = Some sc -> length sc = n) /\ forall j, j < n -> above (tc_det_thr c) d j.
Record scene_frame (k : nat) (f : frame FO) : Prop := {
  sf_period : f_period f = 1%Z;
  sf_ct : f_ct f = None;
  sf_dets : Permutation (f_dets f) (map (ref k) (seq 0 things));
  sf_shows : forall a, a < things -> shows a k (s_heap (f_pre f) (ref k a))
}.
Variable calls : nat.
Hypothesis Apart : kept_apart n dim things pos lab arr reach thr calls.

Lemma rnd_fine : rnd_ok (tc_rnd c).
Proof. intros d. rewrite Ernd. reflexivity. Qed.
Lemma pos_rect a k : a < things -> rectangular n dim (pos a k).
Proof. intros Ha. apply Hshape, Ha. Qed.

(** The thing of a detection. *)
Definition who (r : nat) : nat :=
  match find (fun p => Nat.eqb (ref (fst p) (snd p)) r) (list_prod (seq 0 calls) (seq 0 things)) with Some p => snd p | None => things end.
Lemma who_ref k a : k < calls -> a < things -> who (ref k a) = a.
Proof.
  intros Hk Ha. unfold who. destruct (find _ _) as [[k' a']|] eqn:E.
  - apply find_some in E as [I E]. apply in_prod_iff in I as [_ I]. apply in_seq in I. apply Nat.eqb_eq in E. cbn in *. apply Hrefs in E; [|lia|exact Ha]. apply E.
  - exfalso. pose proof (find_none _ _ E (k, a)) as X. cbn [fst snd] in X. rewrite Nat.eqb_refl in X. discriminate X. apply in_prod; apply in_seq; lia.
Qed.
Lemma dets_iff k f r : scene_frame k f -> (In r (f_dets f) <-> exists a, a < things /\ r = ref k a).
Proof.
  intros F. split.
  - intros H. apply (Permutation_in _ (sf_dets _ _ F)) in H. apply in_map_iff in H as (a & <- & H). apply in_seq in H. exists a. split; [lia|reflexivity].
  - intros (a & Ha & ->). apply (Permutation_in _ (Permutation_sym (sf_dets _ _ F))). apply in_map, in_seq. lia.
Qed.
Lemma dets_who k f : scene_frame k f -> k < calls -> NoDup (map who (f_dets f)).
Proof.
  intros F Hk. apply (Permutation_NoDup (Permutation_sym (Permutation_map who (sf_dets _ _ F)))). rewrite map_map.
  rewrite (map_ext_in _ (fun a => a)); [rewrite map_id; apply seq_NoDup|]. intros a Ha. apply in_seq in Ha. apply who_ref; lia.
Qed.
Lemma dets_nodup k f : scene_frame k f -> k < calls -> NoDup (f_dets f).
Proof. intros F Hk. eapply NoDup_of_map. exact (dets_who k f F Hk). Qed.

(** After a frame the heap still shows the things. *)
Lemma post_shows k (f : frame FO) a : tracker_state c (f_pre f) -> update c (Some (f_dets f)) (f_period f) (f_ct f) (f_pre f) = (f_post f, Ret (f_out f)) ->
  scene_frame k f -> a < things -> shows a k (s_heap (f_post f) (ref k a)).
Proof.
  intros Ht E F Ha. apply tracker_state_good in Ht as [T _]. destruct (update_summary RNum_laws _ _ _ _ _ _ _ rnd_fine T E) as (H1 & H2 & G & news & Su & _).
  pose proof (su_heap _ _ _ _ _ _ _ _ _ _ Su (ref k a)) as (A1 & A2 & A3 & A4 & A5). rewrite (sf_ct _ _ F) in *. cbn [ct_heap] in *.
  destruct (sf_shows _ _ F a Ha) as (B1 & B2 & B3 & B4 & B5). unfold shows, above in *. rewrite <- A1, <- A2, <- A3, <- A5. auto.
Qed.

Definition inv (th : nat -> nat) (k : nat) (f : frame FO) : Prop :=
  s_tracked (f_post f) = seq 1 things /\ s_icount (f_post f) = things /\
  forall i, 1 <= i <= things -> last_det (f_post f) i = ref k (th i) /\ due c (f_post f) i k.

Definition inv0 (th : nat -> nat) (k : nat) (f : frame FO) : Prop :=
  s_tracked (f_post f) = seq 1 things /\ s_icount (f_post f) = things /\ forall i, 1 <= i <= things -> last_det (f_post f) i = ref k (th i).
Lemma inv_inv0 th k f : inv th k f -> inv0 th k f.
Proof. intros (A & B & D). split; [exact A|]. split; [exact B|]. intros i Hi. apply D, Hi. Qed.

Lemma first_inv s f0 rest : tracker_state c s -> s_tracked s = [] -> s_icount s = 0 -> video c s (f0 :: rest) -> scene_frame 0 f0 -> 0 < calls ->
  exists th, (forall i, 1 <= i <= things -> th i < things) /\ (forall a, a < things -> exists i, 1 <= i <= things /\ th i = a) /\
    (forall i j, 1 <= i <= things -> 1 <= j <= things -> th i = th j -> i = j) /\ inv th 0 f0.
Proof.
  intros Ht E0 E1 V F Hc. destruct (video_first _ _ _ _ V Ht) as (Ht0 & E & _ & S1 & S2 & S3).
  pose proof (dets_who 0 f0 F Hc) as Nw. pose proof (dets_iff 0 f0) as Di.
  apply tracker_state_good in Ht0 as G0. destruct (update_summary RNum_laws _ _ _ _ _ _ _ rnd_fine (proj1 G0) E) as (H1 & H2 & G & news & Su & Eo).
  cbn [dets_of] in Su. assert (Ke : kept c (f_pre f0) = []) by (unfold kept; rewrite S2, E0; reflexivity).
  assert (I1 : inits c (f_pre f0) = []) by (unfold inits, alive; rewrite Ke; reflexivity). assert (I2 : uninits c (f_pre f0) = []) by (unfold uninits, alive; rewrite Ke; reflexivity).
  assert (X1 : H1 = []). { pose proof (su_obj1 _ _ _ _ _ _ _ _ _ _ Su) as X. rewrite I1 in X. destruct H1 as [|h H1]; [reflexivity|]. destruct (X (h_obj h)). left. reflexivity. }
  assert (X2 : H2 = []). { pose proof (su_obj2 _ _ _ _ _ _ _ _ _ _ Su) as X. rewrite I2 in X. destruct H2 as [|h H2]; [reflexivity|]. destruct (X (h_obj h)). left. reflexivity. }
  subst H1 H2. pose proof (su_perm _ _ _ _ _ _ _ _ _ _ Su) as Pm. cbn in Pm.
  assert (Ln : length news = things). { rewrite <- (Permutation_length Pm), (Permutation_length (sf_dets _ _ F)), map_length, seq_length. reflexivity. }
  pose proof (su_tracked _ _ _ _ _ _ _ _ _ _ Su) as Tr. rewrite Ke in Tr. rewrite S3, E1, Ln in Tr. replace (remove_all (map h_det G) []) with (@nil nat) in Tr by reflexivity. cbn [app] in Tr.
  pose proof (su_icount _ _ _ _ _ _ _ _ _ _ Su) as Ic. rewrite S3, E1, Ln in Ic. cbn in Ic.
  assert (Nn : NoDup (map who news)) by (eapply Permutation_NoDup; [apply Permutation_map, Pm|exact Nw]).
  assert (Iw : forall k, k < things -> exists a, a < things /\ nth k news 0 = ref 0 a).
  { intros k Hk. apply (Di (nth k news 0) F). apply (Permutation_in _ (Permutation_sym Pm)), nth_In. lia. }
  exists (fun i => who (nth (i - 1) news 0)). split; [|split; [|split]].
  - intros i Hi. destruct (Iw (i - 1) ltac:(lia)) as (a & Ha & ->). rewrite who_ref; auto.
  - intros a Ha. assert (X : In (ref 0 a) news) by (apply (Permutation_in _ Pm), (Di (ref 0 a) F); eauto).
    apply (In_nth _ _ 0) in X as (k & Hk & Ek). exists (S k). split; [lia|]. replace (S k - 1) with k by lia. rewrite Ek. apply who_ref; auto.
  - intros i j Hi Hj Ew. assert (Y : i - 1 = j - 1); [|lia]. apply (proj1 (NoDup_nth (map who news) (who 0)) Nn); rewrite ?map_length; [lia..|]. rewrite !map_nth. exact Ew.
  - split; [exact Tr|]. split; [exact Ic|]. intros i Hi.
    pose proof (su_new _ _ _ _ _ _ _ _ _ _ Su (i - 1) ltac:(lia)) as NR. rewrite S3, E1 in NR. replace (1 + (i - 1)) with i in NR by lia. rewrite (sf_period _ _ F) in NR. split.
    + unfold last_det. rewrite (nr_last _ _ _ _ _ _ _ NR). destruct (Iw (i - 1) ltac:(lia)) as (a & Ha & Ea). rewrite Ea, who_ref; auto.
    + unfold due, hit_counter, tracked. rewrite Tr, (nr_hit _ _ _ _ _ _ _ NR), (nr_reid _ _ _ _ _ _ _ NR), (nr_conf _ _ _ _ _ _ _ NR), (nr_init _ _ _ _ _ _ _ NR). cbn [oc_initial_period].
      split; [apply in_seq; lia|]. split; [lia|]. split; [reflexivity|]. split; [reflexivity|].
      destruct (Z.ltb_spec (Z.of_nat 0) (tc_delay c)); [split; [apply Z.leb_le; lia|reflexivity]|apply Z.leb_gt; lia].
Qed.

Lemma frame_ok s fs k f : video c s fs -> tracker_state c s -> nth_error fs k = Some f ->
  tracker_state c (f_pre f) /\ update c (Some (f_dets f)) (f_period f) (f_ct f) (f_pre f) = (f_post f, Ret (f_out f)).
Proof.
  intros V Ht Hk. destruct k as [|k].
  - destruct fs as [|f' fs]; [discriminate|]. injection Hk as ->. destruct (video_first _ _ _ _ V Ht) as (A & B & _). auto.
  - destruct (nth_error fs k) as [g|] eqn:Eg.
    + destruct (video_next _ _ _ V Ht k g f Eg Hk) as (T & rest & V'). destruct (video_first _ _ _ _ V' T) as (A & B & _). auto.
    + apply nth_error_None in Eg. assert (S k < length fs) by (apply nth_error_Some; congruence). lia.
Qed.


(** Objects that are matched with their things. *)
Lemma scene_motion th s f0 fm i : tracker_state c s -> s_icount s = 0 -> video c s (f0 :: fm) ->
  (forall k f, nth_error (f0 :: fm) k = Some f -> scene_frame k f /\ inv0 th k f) ->
  (forall j, 1 <= j <= things -> th j < things) -> 1 <= i <= things ->
  (forall a b, a < n -> b < dim -> path_motion c f0 fm i n dim a b (fun k => entry (pos (th i) k) a b)) /\
  forall m g, nth_error (f0 :: fm) m = Some g -> let o := s_store (f_post g) i in o_abs_to_rel o = None /\ oc_label (o_conf o) = lab (th i).
Proof.
  intros Ht E1 V Hall Hth Hi. set (t := th i). assert (Hti : t < things) by (apply Hth, Hi).
  destruct (video_first _ _ _ _ V Ht) as (Ht0 & U0 & _ & _ & _ & Ic0).
  destruct (Hall 0 f0 eq_refl) as [F0 (_ & I0 & L0)].
  assert (Cr : s_icount (f_pre f0) < i <= s_icount (f_post f0)) by (rewrite Ic0, E1, I0; lia).
  assert (D0 : shows t 0 (s_heap (f_post f0) (last_det (f_post f0) i))). { rewrite (L0 i Hi). apply post_shows; auto. }
  split.
  - intros a b Ha Hb. destruct D0 as (_ & D2 & _ & D4 & D5). constructor; auto.
    + rewrite D2. apply pos_rect, Hti.
    + rewrite D2, (entry_coordinate n dim) by (auto; apply pos_rect, Hti). reflexivity.
    + intros j f Hf. destruct (Hall (S j) f Hf) as [Ff (_ & _ & Lf)]. destruct (frame_ok _ _ (S j) f V Ht Hf) as [Tf Uf].
      assert (Df : shows t (S j) (s_heap (f_post f) (last_det (f_post f) i))). { rewrite (Lf i Hi). apply post_shows; auto. }
      cbv zeta. destruct Df as (_ & D2' & _ & _ & D5'). split; [|split; [|split; [|split]]].
      * unfold seen. rewrite (Lf i Hi). apply (dets_iff _ _ _ Ff). eauto.
      * unfold fresh. destruct (nth_error (f0 :: fm) j) as [g'|] eqn:Eg; [|apply nth_error_None in Eg; assert (j < length fm) by (apply nth_error_Some; congruence); cbn in Eg; lia].
        destruct (video_next _ _ _ V Ht j g' f Eg Hf) as (Tg' & rest & V'). destruct (video_first _ _ _ _ V' Tg') as (_ & _ & _ & S1 & _).
        destruct (Hall j g' Eg) as [_ (_ & _ & Lg)]. unfold last_det. rewrite S1. change (~ In (last_det (f_post g') i) (f_dets f)). rewrite (Lg i Hi).
        intros X. apply (dets_iff _ _ _ Ff) in X as (a' & Ha' & X). apply Hrefs in X; auto. lia.
      * rewrite D2'. apply pos_rect, Hti.
      * auto.
      * rewrite D2', (entry_coordinate n dim) by (auto; apply pos_rect, Hti). reflexivity.
  - intros m g Gm o. assert (Tg : tracked (f_post g) i). { destruct (Hall m g Gm) as [_ (A & _)]. unfold tracked. rewrite A. apply in_seq. lia. }
    apply (object_history RNum_laws c s f0 fm i (fun _ o => o_abs_to_rel o = None /\ oc_label (o_conf o) = lab t) rnd_fine Ht Ereid V Cr) with (n := m); auto.
    + intros r Hin Er HA NR. rewrite (nr_ct _ _ _ _ _ _ _ NR), (nr_conf _ _ _ _ _ _ _ NR), (sf_ct _ _ F0). split; [reflexivity|]. cbn [oc_label]. rewrite Er.
      destruct (HA (last_det (f_post f0) i)) as (_ & _ & El & _). rewrite (sf_ct _ _ F0) in El. rewrite El. apply D0.
    + intros past f Hf _ _ [P1 P2] _ U. apply In_nth_error in Hf as [j Hf]. destruct (Hall (S j) f Hf) as [Ff _].
      destruct U as [mm ->]. rewrite (sf_ct _ _ Ff). cbn. auto.
    + intros past f r dist om Hf _ _ [P1 P2] _ _ _ U (o1 & F1 & F2). apply In_nth_error in Hf as [j Hf]. destruct (Hall (S j) f Hf) as [Ff _].
      rewrite F2. cbn [set_last_distance o_abs_to_rel o_conf]. rewrite (hr_ct _ _ _ _ _ F1), (hr_conf _ _ _ _ _ F1). destruct U as [mm ->]. rewrite (sf_ct _ _ Ff). cbn. auto.
Qed.

(** Where an object is predicted in the next call. *)
Lemma prediction th s f0 fs m g i : tracker_state c s -> s_icount s = 0 -> video c s (f0 :: fs) -> nth_error (f0 :: fs) m = Some g ->
  (forall k f, nth_error (f0 :: fs) k = Some f -> k <= m -> scene_frame k f /\ inv th k f) ->
  (forall j, 1 <= j <= things -> th j < things) -> 1 <= i <= things ->
  let o := s_store (f_post g) i in
  rectangular n dim (estimate (tracker_step o)) /\ oc_label (o_conf o) = lab (th i) /\
  forall a b, a < n -> b < dim -> (Rabs (entry (estimate (tracker_step o)) a b - entry (pos (th i) (S m)) a b) <= reach)%R.
Proof.
  intros Ht E1 V Hg Hall Hth Hi o. set (t := th i). assert (Hti : t < things) by (apply Hth, Hi).
  set (fm := firstn m fs). assert (Vm : video c s (f0 :: fm)) by (exact (video_firstn c s _ V (S m))).
  assert (Nm : forall j f, nth_error (f0 :: fm) j = Some f -> nth_error (f0 :: fs) j = Some f /\ j <= m).
  { intros [|j] f; cbn; [auto with arith|]. unfold fm. rewrite nth_error_firstn. destruct (Nat.ltb_spec j m); [auto|discriminate]. }
  assert (Gm : nth_error (f0 :: fm) m = Some g).
  { unfold fm. clear - Hg. destruct m as [|m']; [exact Hg|]. change (nth_error (firstn (S m') fs) m' = Some g). rewrite nth_error_firstn. destruct (Nat.ltb_spec m' (S m')); [exact Hg|lia]. }
  assert (Tg : tracked (f_post g) i). { destruct (Hall m g Hg (le_n _)) as [_ (A & _)]. unfold tracked. rewrite A. apply in_seq. lia. }
  destruct (scene_motion th s f0 fm i Ht E1 Vm) as [SM OH]; auto.
  { intros k f Hf. destruct (Nm k f Hf) as [Hf' Hk]. destruct (Hall k f Hf' Hk) as [A B]. split; [exact A|apply inv_inv0, B]. }
  destruct (OH m g Gm) as [Ea El].
  destruct (path_run c s f0 fm i wf same n dim 0 0 _ Rg W rnd_fine Ht Ereid Vm (SM 0 0 Hn Hdim) m g Gm Tg) as (Lm & _ & Sm & Q1 & Q2 & Q3 & _).
  destruct (predicted_estimate wf same n dim o _ Rg W Hdim Ea Sm Q1 Q2 Q3) as [Re En].
  split; [exact Re|]. split; [exact El|]. intros a b Ha Hb.
  destruct (path_run c s f0 fm i wf same n dim a b _ Rg W rnd_fine Ht Ereid Vm (SM a b Ha Hb) m g Gm Tg) as (_ & Mv & _).
  destruct (Pw (truth t a b) _ _ _ (Hmoves t a b Hti Ha Hb) (path_near eps (truth t a b) _ _ _ _ (fun j => Hnear t a b j Hti Ha Hb) Mv)) as (y & w & next & _ & Hy & _ & _ & By).
  rewrite (En a b next Ha Hb Hy). rewrite Lm in By. pose proof (Hnear t a b (S m) Hti Ha Hb) as Ny. pose proof (HB m) as Hm.
  replace (next - entry (pos t (S m)) a b)%R with ((next - truth t a b (S m)) + - (entry (pos t (S m)) a b - truth t a b (S m)))%R by ring.
  eapply Rle_trans; [apply Rabs_triang|]. rewrite Rabs_Ropp. clear - By Ny Hm. lra.
Qed.

(** The distances of a call tell the things apart. *)
Lemma near_iff th m i a (s0 : st FO) : (forall j, 1 <= j <= things -> th j < things) -> S m < calls -> 1 <= i <= things -> a < things ->
  d_points (s_heap s0 (ref (S m) a)) = pos a (S m) -> d_label (s_heap s0 (ref (S m) a)) = lab a -> oc_label (o_conf (s_store s0 i)) = lab (th i) ->
  rectangular n dim (estimate (s_store s0 i)) ->
  (forall p q, p < n -> q < dim -> (Rabs (entry (estimate (s_store s0 i)) p q - entry (pos (th i) (S m)) p q) <= reach)%R) ->
  (near c (on_points arr) s0 (ref (S m) a) i <-> a = th i).
Proof.
  intros Hth Hm Hi Ha Ep El Eo Re En. set (t := th i) in *. assert (Ht : t < things) by (apply Hth, Hi).
  destruct Apart as (sp & Es & Hs & Ap).
  destruct (metric_value _ _ _ Met (pos t (S m)) (estimate (s_store s0 i)) (Hshape t (S m) Ht) Re) as (e & Ee & _).
  assert (He : (e <= sp)%R) by (exact (near_full n dim arr reach _ _ e sp Met Sca (Hshape t (S m) Ht) Re En Ee Es)).
  unfold near, obj_label, view_obj, on_points. cbn [v_obj]. rewrite El, Eo, Ep, Ethr. split.
  - intros [Hl (d & Ed & Hd)]. destruct (Nat.eq_dec a t) as [|Hne]; [assumption|exfalso].
    destruct (Ap a t (S m) Ha Ht Hne Hl Hm) as (dd & E1 & H12).
    destruct (metric_value _ _ _ Met (pos a (S m)) (estimate (s_store s0 i)) (pos_rect _ _ Ha) Re) as (dq & Eq & _). rewrite Eq in Ed. injection Ed as <-.
    rewrite Ernd in Hd. apply (proj1 (dlt_R _ _)) in Hd.
    rewrite (metric_symmetric _ _ _ Met (pos t (S m)) (estimate (s_store s0 i)) (pos_rect _ _ Ht) Re) in Ee.
    pose proof (metric_triangle _ _ _ Met _ _ _ _ _ _ (pos_rect a (S m) Ha) Re (pos_rect t (S m) Ht) Eq Ee E1) as X. clear - X H12 He Hd. lra.
  - intros ->. split; [reflexivity|]. exists (@DFin RNum e). split; [exact Ee|]. rewrite Ernd. apply dlt_R. lra.
Qed.

Lemma blind : age_blind (FO := FO) (on_points arr).
Proof. intros d d' o o' U E _ _. cbn. rewrite E. destruct U as (-> & _). reflexivity. Qed.

Lemma step_inv th s f0 fs m g f : tracker_state c s -> s_icount s = 0 -> video c s (f0 :: fs) -> S m < calls ->
  nth_error (f0 :: fs) m = Some g -> nth_error (f0 :: fs) (S m) = Some f ->
  (forall k f, nth_error (f0 :: fs) k = Some f -> k <= m -> scene_frame k f /\ inv th k f) -> scene_frame (S m) f ->
  (forall j, 1 <= j <= things -> th j < things) -> (forall a, a < things -> exists i, 1 <= i <= things /\ th i = a) ->
  (forall i j, 1 <= i <= things -> 1 <= j <= things -> th i = th j -> i = j) -> inv th (S m) f.
Proof.
  intros Ht E1 V Hm Hg Hf Hall F Hth Hsur Hinj. destruct (Hall m g Hg (le_n _)) as [Fg (T1 & T2 & T3)].
  destruct (video_next _ _ _ V Ht m g f Hg Hf) as (Tg & rest & V'). destruct (video_first _ _ _ _ V' Tg) as (Tf & Uf & _ & S1 & S2 & S3).
  rewrite T1 in S2. rewrite T2 in S3. pose proof (tracker_state_good _ _ Tf) as Gf. pose proof (tracker_state_good _ _ Tg) as Gg.
  assert (Dp : forall i, 1 <= i <= things -> due c (f_pre f) i m /\ last_det (f_pre f) i = ref m (th i)).
  { intros i Hi. destruct (T3 i Hi) as [L (A & B & CC & D & E)]. unfold due, tracked, hit_counter, last_det in *. rewrite S1, S2. rewrite T1 in A. split; [|exact L]. auto 10. }
  assert (Mi : forall i, matchable c (f_pre f) i -> 1 <= i <= things). { intros i (A & _). unfold tracked in A. rewrite S2 in A. apply in_seq in A. lia. }
  assert (Ma : forall i, 1 <= i <= things -> matchable c (f_pre f) i).
  { intros i Hi. destruct (Dp i Hi) as [(A & B & CC & _) _]. split; [exact A|]. split; [lia|]. rewrite CC. auto. }
  assert (Wh : forall i, 1 <= i <= things -> who (last_det (f_pre f) i) = th i). { intros i Hi. rewrite (proj2 (Dp i Hi)). apply who_ref; [lia|auto]. }
  assert (RA : right_association nat who c f).
  { destruct f as [dets p ct pre post out]. cbn [f_dets f_period f_ct f_pre f_post f_out] in *. pose proof (sf_ct _ _ F) as Ec. cbn in Ec. subst ct.
    apply (call_right RNum_laws nat who c (on_points arr)); auto using rnd_fine, blind.
    - intros i j Hi Hj. rewrite !Wh by auto. apply Hinj; auto.
    - constructor; [exact (dets_who _ _ F Hm)|]. cbn [f_dets f_ct f_pre]. intros i r Hi Hr. apply Mi in Hi.
      destruct (proj1 (dets_iff _ _ _ F) Hr) as (a & Ha & ->). rewrite who_ref, Wh by (auto; lia).
      destruct (begin_update c dets None pre) as [[al de] s0] eqn:Eb. cbn [snd].
      destruct (begin_update_effect _ _ _ _ _ _ _ (ti_nodup _ (proj1 Gf)) Eb) as (_ & _ & ST).
      pose proof (sp_heap _ _ _ _ _ ST) as SH. cbn in SH. pose proof (sp_step _ _ _ _ _ ST i (due_kept _ _ _ _ (proj1 (Dp i Hi)))) as SS. cbn in SS. rewrite S1 in SS.
      destruct (prediction th s f0 fs m g i Ht E1 V Hg Hall Hth Hi) as (P1 & P2 & P3).
      destruct (sf_shows _ _ F a Ha) as (D1 & _ & D3 & _). cbn [f_pre] in D1, D3.
      apply (near_iff th m i a s0 Hth Hm Hi Ha); rewrite ?SH, ?SS; auto. }
  assert (Last : forall i, 1 <= i <= things -> last_det (f_post f) i = ref (S m) (th i)).
  { intros i Hi. apply (ra_taken _ _ _ _ RA i); [auto|apply (dets_iff _ _ _ F); eauto|]. rewrite who_ref, Wh by auto. reflexivity. }
  assert (NoNew : s_icount (f_post f) = things).
  { destruct (Nat.eq_dec (s_icount (f_post f)) things) as [|Hne]; [assumption|exfalso].
    destruct (update_summary RNum_laws _ _ _ _ _ _ _ rnd_fine (proj1 Gf) Uf) as (H1 & H2 & G & news & Su & _). pose proof (su_icount _ _ _ _ _ _ _ _ _ _ Su) as Ic. rewrite S3 in Ic.
    destruct (ra_only_new _ _ _ _ RA (S things)) as [X Y]; [rewrite S3; lia|]. apply (dets_iff _ _ _ F) in X as (a & Ha & X). destruct (Hsur a Ha) as (i & Hi & Ei).
    apply (Y i (Ma i Hi)). rewrite X, who_ref, Wh by auto. exact Ei. }
  split; [|split; [exact NoNew|]].
  - destruct (update_summary RNum_laws _ _ _ _ _ _ _ rnd_fine (proj1 Gf) Uf) as (H1 & H2 & G & news & Su & _). pose proof (su_icount _ _ _ _ _ _ _ _ _ _ Su) as Ic. rewrite S3, NoNew in Ic.
    rewrite (su_tracked _ _ _ _ _ _ _ _ _ _ Su), (su_noreid _ _ _ _ _ _ _ _ _ _ Su Ereid). replace (length news) with 0 by lia. cbn [seq map]. rewrite app_nil_r.
    unfold remove_all. rewrite filter_all by reflexivity. rewrite <- S2. unfold kept. apply filter_all. intros i Hi.
    assert (Hi' : 1 <= i <= things) by (rewrite S2 in Hi; apply in_seq in Hi; lia). pose proof (due_kept _ _ _ _ (proj1 (Dp i Hi'))) as X. unfold kept in X. apply filter_In in X. apply X.
  - intros i Hi. split; [apply Last, Hi|]. destruct (frame_fate RNum_laws c _ _ _ i V' rnd_fine Gg) as [Fa Co]; [unfold tracked; rewrite T1; apply in_seq; lia|].
    destruct (Dp i Hi) as [Du Ld]. eapply due_step; [exact (sf_period _ _ F)|exact Edelay|exact Co|exact Fa|exact Du| | |left; exact Ereid].
    + rewrite (Last i Hi). apply (dets_iff _ _ _ F). eauto.
    + rewrite Ld. intros X. apply (dets_iff _ _ _ F) in X as (a' & Ha' & X). apply Hrefs in X; auto. lia.
Qed.

(** All calls. *)
Theorem scene_followed s fs : tracker_state c s -> s_tracked s = [] -> s_icount s = 0 -> video c s fs -> length fs <= calls ->
  (forall k f, nth_error fs k = Some f -> scene_frame k f) -> exists th, all_followed things ref (tc_delay c) th fs.
Proof.
  intros Ht E0 E1 V Hl HF. destruct fs as [|f0 fs].
  { exists (fun i => i - 1). constructor; try (intros [|k]; discriminate). intros a. split; [intros; exists (S a); lia|intros (i & Hi & <-); lia]. }
  cbn [length] in Hl. destruct (first_inv s f0 fs Ht E0 E1 V (HF 0 f0 eq_refl) ltac:(lia)) as (th & Hth & Hsur & Hinj & I0).
  assert (Inv : forall m f, nth_error (f0 :: fs) m = Some f -> inv th m f).
  { intros m. induction m as [m IH] using (well_founded_induction lt_wf). intros f Hf. destruct m as [|m]; [injection Hf as <-; exact I0|].
    assert (Lm : S m < length (f0 :: fs)) by (apply nth_error_Some; congruence). cbn [length] in Lm.
    destruct (nth_error (f0 :: fs) m) as [g|] eqn:Eg; [|apply nth_error_None in Eg; cbn [length] in Eg; lia].
    apply (step_inv th s f0 fs m g f Ht E1 V ltac:(lia) Eg Hf); auto. intros k h Hh Hk. split; [apply HF, Hh|apply IH; [lia|exact Hh]]. }
  exists th. constructor.
  - intros a. split; [intros Ha; destruct (Hsur a Ha) as (i & Hi & Ei); eauto|intros (i & Hi & <-); auto].
  - intros k f Hf. destruct (Inv k f Hf) as (A & B & _). auto.
  - intros k f i Hf Hi. apply (Inv k f Hf), Hi.
  - intros k f Hf. destruct (Inv k f Hf) as (A & B & D). destruct (frame_ok _ _ _ _ V Ht Hf) as [Tf Uf].
    destruct (update_summary RNum_laws _ _ _ _ _ _ _ rnd_fine (proj1 (tracker_state_good _ _ Tf)) Uf) as (_ & _ & _ & _ & _ & ->).
    assert (Ac : forall i, In i (seq 1 things) -> is_active (s_store (f_post f) i) = negb (Z.of_nat k <? tc_delay c)%Z).
    { intros i Hi. assert (Hi' : 1 <= i <= things) by (apply in_seq in Hi; lia). pose proof (due_active _ _ _ _ (proj1 Edelay) (proj2 (D i Hi'))) as X.
      unfold get_active_objects in X. rewrite filter_In, A in X. destruct (Z.ltb_spec (Z.of_nat k) (tc_delay c)), (is_active (s_store (f_post f) i)); cbn; auto; exfalso.
      - assert (Z.to_nat (tc_delay c) <= k) by (apply X; auto). lia.
      - assert (Y : In i (seq 1 things) /\ false = true) by (apply X; lia). destruct Y; discriminate. }
    unfold get_active_objects. rewrite A. destruct (Z.of_nat k <? tc_delay c)%Z; cbn [negb] in Ac.
    + apply filter_none. exact Ac.
    + apply filter_all. exact Ac.
Qed.
End Scene.


Section Inputs.
Context {FO : filter_ops RNum}.
Variables (n dim things : nat) (truth : nat -> nat -> nat -> nat -> R) (shown : nat -> nat -> points RNum) (lab : nat -> label) (ref : nat -> nat -> nat).
Variables (moves : (nat -> R) -> Prop) (eps : R).

Lemma scene_calls dthr ins : 0 < n -> 0 < dim -> noisy_scene n dim things truth shown lab ref moves eps dthr ins -> well_formed_calls n dim ins.
Proof.
  intros Hn Hd S. constructor.
  - apply (scene_once things ref ins (ns_refs _ _ _ _ _ _ _ _ _ _ _ S) 0). intros k y Hy. apply (ns_call _ _ _ _ _ _ _ _ _ _ _ S k y Hy).
  - intros y r d Hy Hr. apply In_nth_error in Hy as [k Hy]. destruct (ns_call _ _ _ _ _ _ _ _ _ _ _ S k y Hy) as (_ & _ & _ & P).
    assert (X : In r (map fst (in_new y))) by (apply in_map_iff; exists (r, d); auto). apply (Permutation_in _ P), in_map_iff in X as (a & <- & Ha). apply in_seq in Ha.
    destruct (ns_detection _ _ _ _ _ _ _ _ _ _ _ S k y a d Hy ltac:(lia) Hr) as (D1 & D2 & _ & D4 & _).
    assert (Sh : rectangular n dim (shown a k)) by (apply (ns_shape _ _ _ _ _ _ _ _ _ _ _ S); lia).
    unfold det_shape. rewrite D1, D2. split; [exact Sh|]. split; [exact Sh|]. exact D4.
  - intros before y after r -> Hr. assert (Hy : nth_error (before ++ y :: after) (length before) = Some y) by (rewrite nth_error_app2, Nat.sub_diag by lia; reflexivity).
    destruct (ns_call _ _ _ _ _ _ _ _ _ _ _ S _ y Hy) as (_ & _ & P & Q). rewrite flat_map_app. apply in_app_iff. right. cbn. rewrite app_nil_r.
    apply (Permutation_in _ (Permutation_sym Q)), (Permutation_in _ P), Hr.
  - intros y T Hy E. apply In_nth_error in Hy as [k Hy]. destruct (ns_call _ _ _ _ _ _ _ _ _ _ _ S k y Hy) as (_ & X & _). congruence.
Qed.

Lemma scene_frames (c : tconf FO) ins s fs : noisy_scene n dim things truth shown lab ref moves eps (tc_det_thr c) ins -> play c s ins = Some fs ->
  forall k f, nth_error fs k = Some f -> scene_frame n things shown lab ref c k f.
Proof.
  intros S E k f Hf. destruct (play_inputs c ins s fs k f E Hf) as (y & h & Hy & F1 & F2 & F3 & F4). destruct (ns_call _ _ _ _ _ _ _ _ _ _ _ S k y Hy) as (S1 & S2 & S3 & S4).
  constructor; [rewrite F2; exact S1|rewrite F3; exact S2|rewrite F1; exact S3|]. intros a Ha. rewrite F4.
  assert (Nd : NoDup (map fst (in_new y))).
  { eapply Permutation_NoDup; [symmetry; exact S4|]. apply nodup_map; [|apply seq_NoDup]. intros p q Hp Hq X. apply in_seq in Hp, Hq. apply (ns_refs _ _ _ _ _ _ _ _ _ _ _ S) in X; [apply X|lia..]. }
  destruct (put_new (in_new y) Nd h (ref k a)) as (d & Hd & ->); [apply (Permutation_in _ (Permutation_sym S4)), in_map, in_seq; lia|].
  exact (ns_detection _ _ _ _ _ _ _ _ _ _ _ S k y a d Hy Ha Hd).
Qed.
End Inputs.

Section Main.
Context {FO : filter_ops RNum}.
Variables (wf : nat -> fstate FO -> Prop) (same : fstate FO -> fstate FO -> Prop).
Hypothesis Rg : regular FO wf.
Hypothesis W : rewritable FO wf same.

Theorem noisy_scenes_followed moves eps reach bound : keeps_near FO moves eps bound -> (forall k, (bound k + eps <= reach)%R) ->
  follows_noisy_scenes FO moves eps reach bound.
Proof.
  intros Pw HB n dim things truth shown lab ref arr thr c ins heap g dummy Hn Hd Ha Tc Sc Ap.
  destruct (builtin_scales n dim arr Hn Ha) as [M S].
  destruct (new_tracker_returns RNum_laws n dim wf Hn Hd Rg c ins heap g dummy (scene_usable n dim arr thr c M Tc) (scene_calls n dim things truth shown lab ref moves eps _ ins Hn Hd Sc)) as (fs & E & L).
  pose proof (play_video _ _ _ _ E) as V. pose proof (scene_frames n dim things truth shown lab ref moves eps c ins _ fs Sc E) as F.
  destruct Tc as [E1 E2 E3 E4 E5].
  assert (Ht : tracker_state c (new_tracker heap g dummy)) by constructor.
  destruct (scene_followed wf same moves eps reach thr bound Rg W Pw HB n dim things truth shown lab ref arr Hn Hd M S c E1 E2 E3 E4 E5
    (ns_shape _ _ _ _ _ _ _ _ _ _ _ Sc) (ns_moves _ _ _ _ _ _ _ _ _ _ _ Sc) (ns_near _ _ _ _ _ _ _ _ _ _ _ Sc) (ns_refs _ _ _ _ _ _ _ _ _ _ _ Sc) (length ins) Ap (new_tracker heap g dummy) fs) as [th A]; auto; [lia|].
  exists fs, th. split; [exact E|]. split; [exact L|]. split; [exact A|]. intros k f i a b Hf Hi Ha' Hb t.
  assert (Hth : forall j, 1 <= j <= things -> th j < things) by (intros j Hj; apply (af_things _ _ _ _ _ A); eauto).
  destruct fs as [|f0 rest]; [destruct k; discriminate|].
  destruct (scene_motion n dim things shown lab ref Hn Hd c E3 E4 (ns_shape _ _ _ _ _ _ _ _ _ _ _ Sc) (ns_refs _ _ _ _ _ _ _ _ _ _ _ Sc) th (new_tracker heap g dummy) f0 rest i Ht eq_refl V) as [SM OH]; auto.
  { intros m h Hh. split; [apply F, Hh|]. destruct (af_objects _ _ _ _ _ A m h Hh) as [A1 A2]. split; [exact A1|]. split; [exact A2|]. intros j Hj. apply (af_matched _ _ _ _ _ A); auto. }
  destruct (OH k f Hf) as [Ea _].
  assert (Tr : tracked (f_post f) i) by (unfold tracked; rewrite (proj1 (af_objects _ _ _ _ _ A k f Hf)); apply in_seq; lia).
  assert (Rf : rnd_ok (tc_rnd c)) by (intros d; rewrite E3; reflexivity).
  destruct (path_run c _ f0 rest i wf same n dim a b _ Rg W Rf Ht E4 V (SM a b Ha' Hb) k f Hf Tr) as (Lm & Mv & _ & _ & _ & _ & Es).
  destruct (Pw t _ _ _ (ns_moves _ _ _ _ _ _ _ _ _ _ _ Sc (th i) a b (Hth i Hi) Ha' Hb) (path_near eps t _ _ _ _ (fun j => ns_near _ _ _ _ _ _ _ _ _ _ _ Sc (th i) a b j (Hth i Hi) Ha' Hb) Mv)) as (y & w & next & Fa & _ & B1 & B2 & _).
  rewrite Lm in B1, B2. destruct (Es y w Fa) as [C1 C2]. exists y, w.
  assert (Ee : estimate (s_store (f_post f) i) = absolute_estimate (s_store (f_post f) i)) by (unfold absolute_estimate, get_estimate; rewrite Ea; reflexivity).
  rewrite Ee. auto.
Qed.
End Main.

(** C107: the files made of a tracked video. *)
From Coq Require Import ZArith Bool Lia List Arith String Sorted.
From Verif Require Import Model.Num Model.Base Model.Strings Model.Matching Model.Filter Model.Tracker Model.Metrics Spec.MatchingSpec.
From Verif Require Import Proofs.NumLaws Proofs.MatchingProofs Proofs.TrackerFrame Proofs.Identity Proofs.Effect Proofs.CallEffect Proofs.CallProps Proofs.CallTheorems
  Proofs.CallTheorems2 Proofs.CallTheorems3 Proofs.Progress Proofs.MetricsProofs Proofs.MetricsMore.
From Verif Require Import Spec.CallSpec Spec.PointSpec Spec.ExampleVideo Spec.ProgressSpec Spec.MetricsSpec Spec.ResultSpec.
Import ListNotations.
Local Open Scope nat_scope.

Section P.
Context {N : Num} (laws : NumLaws N) {FO : filter_ops N}.
Notation st := (st FO).
Variable c : tconf FO.
Hypothesis Hr : rnd_ok (tc_rnd c).
Notation id_in f i := (o_id (s_store (f_post f) i)).


Lemma step_inv (s : st) f fs : tracker_state c s -> video c s (f :: fs) ->
  good c (f_pre f) /\ update c (Some (f_dets f)) (f_period f) (f_ct f) (f_pre f) = (f_post f, Ret (f_out f)) /\
  f_out f = get_active_objects (f_post f) /\ s_store (f_pre f) = s_store s /\ s_tracked (f_pre f) = s_tracked s /\ s_icount (f_pre f) = s_icount s /\
  s_count (f_pre f) = s_count s /\ tracker_state c (f_post f) /\ video c (f_post f) fs.
Proof.
  intros Ht V. destruct (video_cons_inv laws _ _ _ _ V Hr (tracker_state_good _ _ Ht)) as (Gp & Gq & E & Eo & S1 & S2 & S3 & V').
  assert (Ht1 : tracker_state c (f_pre f) /\ s_count (f_pre f) = s_count s) by (inversion V; subst; cbn; split; [apply ts_meanwhile; auto|reflexivity]).
  pose proof (tracker_state_ret _ _ _ _ _ _ _ (proj1 Ht1) E) as Ht2. intuition.
Qed.
Lemma final_state (s : st) fs : tracker_state c s -> video c s fs -> tracker_state c (final s fs).
Proof. revert s. induction fs as [|f fs IH]; intros s Ht V; [exact Ht|]. destruct (step_inv _ _ _ Ht V) as (_ & _ & _ & _ & _ & _ & _ & Ht2 & V'). apply (IH _ Ht2 V'). Qed.
(** What was known stays: ids are kept until the end. *)
Lemma kept_until (s : st) fs i : tracker_state c s -> video c s fs -> known s i -> known (final s fs) i /\ evolves (s_store s i) (s_store (final s fs) i).
Proof.
  revert s. induction fs as [|f fs IH]; intros s Ht V Hk; [split; [exact Hk|apply evolves_refl]|].
  destruct (step_inv _ _ _ Ht V) as (Gp & E & Eo & S1 & S2 & S3 & S4 & Ht2 & V').
  assert (Hk1 : known (f_pre f) i) by (unfold known in *; rewrite S3; exact Hk).
  pose proof (update_evolves _ _ _ _ _ _ _ i Gp E Hk1) as Ev. rewrite S1 in Ev.
  assert (Hk2 : known (f_post f) i) by (pose proof (update_icount _ _ _ _ _ _ _ Gp E); unfold known in *; lia).
  destruct (IH _ Ht2 V' Hk2) as [A B]. split; [exact A|]. eapply evolves_trans; eauto.
Qed.
Lemma returned_final (s : st) fs f i : tracker_state c s -> video c s fs -> In f fs -> In i (f_out f) ->
  exists a, id_in f i = Some a /\ known (final s fs) i /\ o_id (s_store (final s fs) i) = Some a /\ 1 <= a <= s_count (final s fs).
Proof.
  revert s. induction fs as [|f0 fs IH]; intros s Ht V Hf Hi; [destruct Hf|].
  destruct (step_inv _ _ _ Ht V) as (Gp & E & Eo & S1 & S2 & S3 & S4 & Ht2 & V').
  destruct Hf as [<-|Hf]; [|apply (IH _ Ht2 V' Hf Hi)].
  rewrite Eo in Hi. apply active_iff in Hi as (Hi1 & Hi2 & Hi3). pose proof (proj1 (tracker_state_good _ _ Ht2)) as T.
  pose proof (valid_tracked _ _ T Hi1) as Hv. destruct (ti_done _ T i Hv Hi2) as (a & g & Ha & _).
  destruct (kept_until _ _ i Ht2 V' Hv) as [K Ev]. pose proof (ev_id _ _ Ev a Ha) as Hfin. exists a. cbn [final fold_left]. fold (final (f_post f0) fs).
  split; [exact Ha|]. split; [exact K|]. split; [exact Hfin|].
  apply (TInv_id_some _ i a (proj1 (tracker_state_good _ _ (final_state _ _ Ht2 V'))) K Hfin).
Qed.
Theorem ids_name (s : st) fs : tracker_state c s -> video c s fs -> ids_name_objects fs.
Proof.
  intros Ht V f f' i i' Hf Hf' Hi Hi'. destruct (returned_final _ _ _ _ Ht V Hf Hi) as (a & A1 & A2 & A3 & _).
  destruct (returned_final _ _ _ _ Ht V Hf' Hi') as (b & B1 & B2 & B3 & _). rewrite A1, B1.
  pose proof (proj1 (tracker_state_good _ _ (final_state _ _ Ht V))) as T. split; [|intros ->; congruence].
  intros X. injection X as <-. exact (ti_inj _ T i i' a A2 B2 A3 B3).
Qed.

(** Without re-identification an object that is not returned after it was is gone. *)
Definition over (s : st) (i : nat) : Prop := known s i /\ (tracked s i -> (hit_counter s i < 0)%Z).
Lemma over_step dets p ct (s s' : st) out i : tc_reid_distance c = None -> good c s -> update c (Some dets) p ct s = (s', Ret out) -> over s i -> over s' i.
Proof.
  intros Hre Hg E [Hk Ho]. split; [pose proof (update_icount _ _ _ _ _ _ _ Hg E); unfold known in *; lia|]. intros Hi'.
  pose proof (tracked_pre laws _ _ _ _ _ _ _ _ Hr Hg E Hk Hi') as Hkp. pose proof (kept_tracked _ _ _ Hkp) as Hi. specialize (Ho Hi).
  destruct (update_fate laws _ _ _ _ _ _ _ i Hr Hg E Hi) as [A B D|A B D|r d om A B D F G H|j om A B D]; [contradiction| |apply alive_iff in A; lia|congruence].
  unfold hit_counter in *. rewrite (um_hit _ _ D), st_hit. lia.
Qed.
Lemma over_never (s : st) fs i : tc_reid_distance c = None -> tracker_state c s -> video c s fs -> over s i -> forall f, In f fs -> ~ In i (f_out f).
Proof.
  intros Hre. revert s. induction fs as [|f0 fs IH]; intros s Ht V Ho f Hf; [destruct Hf|].
  destruct (step_inv _ _ _ Ht V) as (Gp & E & Eo & S1 & S2 & S3 & S4 & Ht2 & V').
  assert (Ho1 : over (f_pre f0) i) by (unfold over, known, tracked, hit_counter in *; rewrite S1, S2, S3; exact Ho).
  pose proof (over_step _ _ _ _ _ _ _ Hre Gp E Ho1) as Ho2.
  destruct Hf as [<-|Hf]; [|eapply (IH _ Ht2 V' Ho2); exact Hf]. rewrite Eo, active_iff. intros (A & _ & B). apply (proj2 Ho2) in A. lia.
Qed.
Lemma no_gap (s : st) fs i : tc_reid_distance c = None -> tracker_state c s -> video c s fs -> (known s i /\ o_initializing (s_store s i) = false) ->
  forall k2 k3 f2 f3, k2 <= k3 -> nth_error fs k2 = Some f2 -> nth_error fs k3 = Some f3 -> In i (f_out f3) -> In i (f_out f2).
Proof.
  intros Hre. revert s. induction fs as [|f0 fs IH]; intros s Ht V Hin k2 k3 f2 f3 Hle H2 H3 Hi; [destruct k2; discriminate|].
  destruct (step_inv _ _ _ Ht V) as (Gp & E & Eo & S1 & S2 & S3 & S4 & Ht2 & V').
  assert (Hk1 : known (f_pre f0) i) by (unfold known in *; rewrite S3; apply Hin).
  pose proof (update_evolves _ _ _ _ _ _ _ i Gp E Hk1) as Ev. rewrite S1 in Ev.
  assert (Hk2 : known (f_post f0) i) by (pose proof (update_icount _ _ _ _ _ _ _ Gp E); unfold known in *; lia).
  pose proof (ev_init _ _ Ev (proj2 Hin)) as Hini.
  destruct k2 as [|k2].
  - cbn in H2. injection H2 as <-. destruct k3 as [|k3]; [cbn in H3; injection H3 as <-; exact Hi|]. cbn in H3.
    destruct (in_dec Nat.eq_dec i (f_out f0)) as [Y|Nn]; [exact Y|exfalso].
    apply (over_never _ _ i Hre Ht2 V') with (f := f3); [|eapply nth_error_In; eauto|exact Hi]. split; [exact Hk2|]. intros Tr.
    destruct (Z_lt_le_dec (hit_counter (f_post f0) i) 0) as [L|L]; [exact L|]. exfalso. apply Nn. rewrite Eo. apply active_iff. auto.
  - destruct k3 as [|k3]; [lia|]. cbn in H2, H3. eapply (IH _ Ht2 V' (conj Hk2 Hini) k2 k3); eauto. lia.
Qed.
Theorem returned_without_gaps (s : st) fs i : tc_reid_distance c = None -> tracker_state c s -> video c s fs ->
  forall k1 k2 k3 f1 f2 f3, k1 <= k2 <= k3 -> nth_error fs k1 = Some f1 -> nth_error fs k2 = Some f2 -> nth_error fs k3 = Some f3 ->
  In i (f_out f1) -> In i (f_out f3) -> In i (f_out f2).
Proof.
  intros Hre. revert s. induction fs as [|f0 fs IH]; intros s Ht V k1 k2 k3 f1 f2 f3 Hle H1 H2 H3 I1 I3; [destruct k1; discriminate|].
  destruct (step_inv _ _ _ Ht V) as (Gp & E & Eo & S1 & S2 & S3 & S4 & Ht2 & V').
  destruct k1 as [|k1].
  - cbn in H1. injection H1 as <-. destruct k2 as [|k2]; [cbn in H2; injection H2 as <-; exact I1|]. destruct k3 as [|k3]; [lia|]. cbn in H2, H3.
    rewrite Eo in I1. apply active_iff in I1 as (A & B & D).
    apply (no_gap _ fs i Hre Ht2 V' (conj (valid_tracked _ _ (proj1 (tracker_state_good _ _ Ht2)) A) B) k2 k3 f2 f3); auto. lia.
  - destruct k2 as [|k2]; [lia|]. destruct k3 as [|k3]; [lia|]. cbn in H1, H2, H3. eapply (IH _ Ht2 V' k1 k2 k3); eauto. lia.
Qed.

(** ** The boxes *)
Lemma box_exists n dim (p : points N) a : 2 <= n -> 2 <= dim -> rectangular n dim p -> exists x, b_id x = a /\ shows_box (MkPred (Some a) p) x.
Proof.
  intros Hn Hd [L F]. destruct p as [|r0 [|r1 rest]]; cbn in L; try lia. pose proof (Forall_inv F) as F0. pose proof (Forall_inv (Forall_inv_tail F)) as F2. cbn beta in F0, F2.
  destruct r0 as [|l [|t row0]]; cbn in F0; try lia. destruct r1 as [|r [|b row1]]; cbn in F2; try lia.
  exists (MkBox a l t r b). split; [reflexivity|]. split; [reflexivity|]. cbn. eauto.
Qed.
Lemma boxes_of_list {A} (P : A -> prediction (N := N)) l : (forall i, In i l -> exists x, shows_box (P i) x) -> exists xs, Forall2 shows_box (map P l) xs.
Proof.
  induction l as [|i l IH]; intros H; [exists []; constructor|]. destruct (H i (or_introl eq_refl)) as [x Hx]. destruct IH as [xs Hxs]; [intros j Hj; apply H; right; exact Hj|].
  exists (x :: xs). constructor; auto.
Qed.
Lemma boxes_exist n dim (s : st) fs : 2 <= n -> 2 <= dim -> tracker_state c s -> video c s fs ->
  (forall f i, In f fs -> tracked (f_post f) i -> rectangular n dim (estimate (s_store (f_post f) i))) ->
  exists boxes, Forall2 (Forall2 shows_box) (map predictions_of fs) boxes.
Proof.
  intros Hn Hd Ht V Sh.
  assert (H : forall f, In f fs -> exists xs, Forall2 shows_box (predictions_of f) xs).
  { intros f Hf. unfold predictions_of. apply boxes_of_list. intros i Hi. destruct (returned_final _ _ _ _ Ht V Hf Hi) as (a & -> & _).
    destruct (box_exists n dim (estimate (s_store (f_post f) i)) a Hn Hd) as (x & _ & Hx); [|eauto]. apply Sh; [exact Hf|].
    destruct (video_state laws c s fs Hr Ht V f Hf) as (_ & _ & _ & _ & Eo). rewrite Eo in Hi. apply active_iff in Hi. apply Hi. }
  clear -H. induction fs as [|f fs IH]; [exists []; constructor|]. destruct (H f (or_introl eq_refl)) as [xs Hx]. destruct IH as [b Hb]; [intros g Hg; apply H; right; exact Hg|].
  exists (xs :: b). constructor; auto.
Qed.
Lemma ids_of_boxes (f : CallSpec.frame FO) xs : Forall2 shows_box (predictions_of f) xs -> map (fun i => id_in f i) (f_out f) = map Some (map b_id xs).
Proof.
  unfold predictions_of. generalize (f_out f) as l. intros l. revert xs. induction l as [|i l IH]; intros xs H; cbn in H; inversion H; subst; [reflexivity|].
  cbn. rewrite (IH _ H4). destruct H2 as [E _]. cbn in E. rewrite E. reflexivity.
Qed.
Lemma has_id_object (f : CallSpec.frame FO) xs a : Forall2 shows_box (predictions_of f) xs -> (has_id a xs <-> exists i, In i (f_out f) /\ id_in f i = Some a).
Proof.
  intros H. apply ids_of_boxes in H. unfold has_id. split.
  - intros Ha. apply (in_map Some) in Ha. rewrite <- H in Ha. apply in_map_iff in Ha as (i & E & Hi). eauto.
  - intros (i & Hi & E). assert (X : In (Some a) (map Some (map b_id xs))) by (rewrite <- H, <- E; apply in_map_iff; eauto).
    apply in_map_iff in X as (b & Eb & Hb). injection Eb as ->. exact Hb.
Qed.
Lemma forall2_nth {A B} (R : A -> B -> Prop) l l' k b : Forall2 R l l' -> nth_error l' k = Some b -> exists a, nth_error l k = Some a /\ R a b.
Proof. intros H. revert k. induction H; intros [|k] E; cbn in *; try discriminate; [injection E as <-; eauto|auto]. Qed.
Lemma forall2_nth' {A B} (R : A -> B -> Prop) l l' k a : Forall2 R l l' -> nth_error l k = Some a -> exists b, nth_error l' k = Some b /\ R a b.
Proof. intros H. revert k. induction H; intros [|k] E; cbn in *; try discriminate; [injection E as <-; eauto|auto]. Qed.
Lemma frame_boxes (fs : list (CallSpec.frame FO)) boxes k xs : Forall2 (Forall2 shows_box) (map predictions_of fs) boxes -> nth_error boxes k = Some xs ->
  exists f, nth_error fs k = Some f /\ Forall2 shows_box (predictions_of f) xs.
Proof.
  intros H E. destruct (forall2_nth _ _ _ _ _ H E) as (p & Hp & Hx). rewrite nth_error_map in Hp. destruct (nth_error fs k) as [f|]; [|discriminate]. injection Hp as <-. eauto.
Qed.

Theorem tracks_of_boxes (s : st) fs boxes : tracker_state c s -> s_icount s = 0 -> video c s fs -> Forall2 (Forall2 shows_box) (map predictions_of fs) boxes ->
  one_box_each (total_object_count (final s fs)) boxes /\ (tc_reid_distance c = None -> without_gaps boxes) /\
  (tc_reid_distance c = None -> (0 <= tc_delay c)%Z -> all_ids (total_object_count (final s fs)) boxes).
Proof.
  intros Ht H0 V Hb. split; [|split].
  - intros xs Hx. destruct (In_nth_error _ _ Hx) as [k Hk]. destruct (frame_boxes _ _ _ _ Hb Hk) as (f & Hf & Hfx). pose proof (nth_error_In _ _ Hf) as Hin. split.
    + destruct (video_state laws c s fs Hr Ht V f Hin) as (_ & Ht2 & _ & _ & Eo).
      assert (Nd : NoDup (f_out f)). { rewrite Eo. apply NoDup_filter, ti_nodup, (proj1 (tracker_state_good _ _ Ht2)). }
      assert (X : NoDup (map (fun i => id_in f i) (f_out f))).
      { pose proof (fun i i' Hi Hi' => proj1 (ids_name s fs Ht V f f i i' Hin Hin Hi Hi')) as Inj. revert Nd Inj. generalize (f_out f) as l. clear. induction l as [|i l IH]; intros Nd Inj; [constructor|].
        inversion Nd; subst. cbn. constructor; [|apply IH; auto; intros; apply Inj; auto; right; auto].
        intros X. apply in_map_iff in X as (j & E & Hj). apply H1. rewrite <- (Inj j i); auto; [right; auto|left; auto]. }
      rewrite (ids_of_boxes _ _ Hfx) in X. eapply NoDup_map_inv. exact X.
    + intros a Ha. apply (has_id_object _ _ _ Hfx) in Ha as (i & Hi & E). destruct (returned_final _ _ _ _ Ht V Hin Hi) as (a' & E' & _ & _ & R). rewrite E in E'. injection E' as <-. exact R.
  - intros Hre a k1 k2 k3 x1 x2 x3 Hle H1 H2 H3 A1 A3.
    destruct (frame_boxes _ _ _ _ Hb H1) as (f1 & F1 & B1). destruct (frame_boxes _ _ _ _ Hb H2) as (f2 & F2 & B2). destruct (frame_boxes _ _ _ _ Hb H3) as (f3 & F3 & B3).
    apply (has_id_object _ _ _ B1) in A1 as (i & I1 & E1). apply (has_id_object _ _ _ B3) in A3 as (j & I3 & E3).
    assert (j = i) as -> by (apply (ids_name s fs Ht V f3 f1); eauto using nth_error_In; congruence).
    pose proof (returned_without_gaps s fs i Hre Ht V k1 k2 k3 f1 f2 f3 Hle F1 F2 F3 I1 I3) as I2.
    apply (has_id_object _ _ _ B2). exists i. split; [exact I2|]. rewrite <- E1. apply (ids_name s fs Ht V f2 f1); eauto using nth_error_In.
  - intros Hre Hd a Ha. pose proof (proj1 (tracker_state_good _ _ (final_state _ _ Ht V))) as T. destruct (ti_surj _ T a Ha) as (i & Hv & Ei).
    destruct (TInv_id_some _ i a T Hv Ei) as [Ini _].
    destruct (List.exists_last (l := fs)) as (fs' & fl & El).
    { intros ->. cbn in Hv. unfold valid in Hv. rewrite H0 in Hv. lia. }
    assert (Hl : nth_error fs (List.length fs') = Some fl) by (rewrite El, nth_error_app2, Nat.sub_diag by lia; reflexivity).
    assert (Ef : final s fs = f_post fl) by (unfold final; rewrite El, fold_left_app; reflexivity). rewrite Ef in *.
    destruct (proj1 (initialized_iff_returned laws c s fs Hr Ht H0 Hd Hre V _ fl i Hl) (conj Hv Ini)) as (m & g & _ & Hg & Hi).
    assert (Hp : nth_error (map predictions_of fs) m = Some (predictions_of g)) by (rewrite nth_error_map, Hg; reflexivity).
    destruct (forall2_nth' _ _ _ _ _ Hb Hp) as (xs & Hx & Hgx). exists xs. split; [eapply nth_error_In; eauto|].
    apply (has_id_object _ _ _ Hgx). exists i. split; [exact Hi|].
    destruct (returned_final _ _ _ _ Ht V (nth_error_In _ _ Hg) Hi) as (b & Eb & _ & Fb & _). rewrite Ef, Ei in Fb. injection Fb as <-. exact Eb.
Qed.
End P.

(** ** From the calls to the files *)
Section V.
Context {N : Num} (laws : NumLaws N).
Lemma tracked_boxes (FO : filter_ops N) wf n dim (c : tconf FO) ins heap g dummy :
  regular FO wf -> 2 <= n -> 2 <= dim -> usable n dim c -> well_formed_calls n dim ins ->
  exists fs boxes, play c (new_tracker heap g dummy) ins = Some fs /\ List.length fs = List.length ins /\ Forall2 (Forall2 shows_box) (map predictions_of fs) boxes /\
    ids_name_objects fs /\ one_box_each (total_object_count (final (new_tracker heap g dummy) fs)) boxes /\
    (tc_reid_distance c = None -> without_gaps boxes) /\
    (tc_reid_distance c = None -> (0 <= tc_delay c)%Z -> all_ids (total_object_count (final (new_tracker heap g dummy) fs)) boxes).
Proof.
  intros RG Hn Hd U W.
  destruct (new_tracker_shapes laws n dim wf ltac:(lia) ltac:(lia) RG c ins heap g dummy U W) as (fs & P & L & Sh).
  assert (Ht : tracker_state c (new_tracker heap g dummy)) by apply ts_new. pose proof (us_rounding _ _ _ U) as Hr. pose proof (play_video _ _ _ _ P) as V.
  destruct (boxes_exist laws c Hr n dim _ fs Hn Hd Ht V Sh) as [boxes Hb]. exists fs, boxes.
  split; [exact P|]. split; [exact L|]. split; [exact Hb|]. split; [exact (ids_name laws c Hr _ fs Ht V)|]. exact (tracks_of_boxes laws c Hr _ fs boxes Ht eq_refl V Hb).
Qed.
Theorem file_of_video (FO : filter_ops N) wf n dim (c : tconf FO) ins heap g dummy fmt lines len s0 :
  regular FO wf -> 2 <= n -> 2 <= dim -> usable n dim c -> well_formed_calls n dim ins ->
  search lines "seqLength" = Ret (InfoInt len) -> pt_new lines = Ret s0 -> (Z.of_nat (List.length ins) <= len)%Z -> (0 < len)%Z ->
  exists fs boxes s, play c (new_tracker heap g dummy) ins = Some fs /\ Forall2 (Forall2 shows_box) (map predictions_of fs) boxes /\
    pt_run fmt (map predictions_of fs) s0 = (s, Ret tt) /\ pt_text s = video_text fmt 1 boxes /\
    ids_name_objects fs /\ one_box_each (total_object_count (final (new_tracker heap g dummy) fs)) boxes /\
    (tc_reid_distance c = None -> without_gaps boxes) /\
    (tc_reid_distance c = None -> (0 <= tc_delay c)%Z -> all_ids (total_object_count (final (new_tracker heap g dummy) fs)) boxes).
Proof.
  intros RG Hn Hd U W Es En Hl Hp. destruct (tracked_boxes FO wf n dim c ins heap g dummy RG Hn Hd U W) as (fs & boxes & P & L & Hb & R).
  destruct (predictions_file fmt len lines s0 (map predictions_of fs) boxes Es En) as (s & A & B & _); [rewrite map_length, L; exact Hl|exact Hp|exact Hb|].
  exists fs, boxes, s. auto.
Qed.

Lemma keys_later (boxes : list (list (box N))) : forall k r, In r (video_rows k boxes) -> (k <= mr_frame r)%Z.
Proof.
  induction boxes as [|xs boxes IH]; intros k r H; [destruct H|]. cbn in H. apply in_app_iff in H as [H|H]; [apply in_map_iff in H as (x & <- & _); cbn; lia|].
  apply IH in H. lia.
Qed.
Lemma keys_distinct (boxes : list (list (box N))) : Forall (fun xs => NoDup (map b_id xs)) boxes -> forall k, NoDup (map row_key (video_rows k boxes)).
Proof.
  induction 1 as [|xs boxes Hx H IH]; intros k; [constructor|]. cbn [video_rows]. rewrite map_app, map_map. unfold row_key at 1. cbn [mr_frame mr_id].
  assert (D : forall (l : list (box N)), NoDup (map b_id l) -> (forall y, In y (map row_key (video_rows (k + 1) boxes)) -> (k < fst y)%Z) ->
    NoDup (map (fun x => (k, Some (b_id x))) l ++ map row_key (video_rows (k + 1) boxes))).
  { clear Hx. induction l as [|x l IHl]; intros Nd Hy; [apply IH|]. cbn in *. inversion Nd; subst. constructor; [|apply IHl; auto].
    intros X. apply in_app_iff in X as [X|X]; [apply in_map_iff in X as (y & E & Hyl); injection E as E; apply H2; rewrite <- E; apply in_map; exact Hyl|].
    apply Hy in X. cbn in X. lia. }
  apply D; [exact Hx|]. intros y Hy. apply in_map_iff in Hy as (r & <- & Hr). apply keys_later in Hr. cbn. lia.
Qed.
Lemma concat_len {A B} (R : A -> B -> Prop) l l' : Forall2 (Forall2 R) l l' -> List.length (List.concat l) = List.length (List.concat l').
Proof. induction 1 as [|a b l l' H _ IH]; [reflexivity|]. cbn. rewrite !app_length, IH. f_equal. induction H; cbn; auto. Qed.
Lemma session_boxes (v : session N) : tracked_session v -> exists x, good_session v x /\ fst x = fst v /\ NoDup (map row_key (video_rows 1 (snd x))).
Proof.
  destruct v as [path [k ps]]. intros (FO & wf & n & dim & c & ins & heap & g & dummy & fs & RG & Hn & Hd & U & W & Hne & P & Hlen & E). cbn in E. injection E as -> ->.
  destruct (tracked_boxes FO wf n dim c ins heap g dummy RG Hn Hd U W) as (fs' & boxes & P' & L & Hb & _ & Ho & _). rewrite P in P'. injection P' as <-.
  exists (path, boxes). split; [|split; [reflexivity|]].
  - cbn. split; [reflexivity|]. rewrite map_length. split; [reflexivity|]. split; [destruct fs; [destruct ins; [congruence|discriminate]|discriminate]|]. split; [exact Hb|].
    rewrite <- (concat_len _ _ _ Hb). intros X. apply Hlen. rewrite <- X. clear. induction fs as [|f fs IH]; [reflexivity|]. cbn. rewrite !app_length, IH. f_equal. unfold predictions_of. rewrite map_length. reflexivity.
  - cbn. apply keys_distinct. apply Forall_forall. intros xs Hx. apply (Ho xs Hx).
Qed.
Theorem rows_of_videos (vs : list (session N)) names : Forall tracked_session vs -> Forall2 name_of (map fst vs) names -> NoDup names ->
  exists s (xs : list (string * list (list (box N)))), sessions vs ac_new = (s, Ret tt) /\ Forall2 good_session vs xs /\
    ac_evaluated s = Ret (combine names (map (fun x => video_rows 1 (snd x)) xs)) /\
    Forall (fun x => NoDup (map row_key (video_rows 1 (snd x)))) xs.
Proof.
  intros T Hn Nd.
  assert (H : exists xs, Forall2 good_session vs xs /\ map fst xs = map fst vs /\ Forall (fun x => NoDup (map row_key (video_rows 1 (snd x)))) xs).
  { clear Hn Nd. induction T as [|v vs Hv T IH]; [exists []; repeat constructor|]. destruct (session_boxes v Hv) as (x & A & B & D). destruct IH as (xs & A' & B' & D').
    exists (x :: xs). split; [constructor; auto|]. split; [cbn; congruence|constructor; auto]. }
  destruct H as (xs & A & B & D). rewrite <- B in Hn. destruct (evaluated_spec vs xs names A Hn Nd) as (s & E1 & E2). exists s, xs. auto.
Qed.
End V.

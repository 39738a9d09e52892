(** The filter of an object is a replay of the detections matched to it. *)
From Coq Require Import ZArith Bool Arith String List Lia Permutation FunctionalExtensionality Reals.
From Verif Require Import Model.Num Model.Base Model.Matching Model.Filter Model.Tracker Model.KalmanMatrix
  Spec.MatchingSpec Spec.IdentitySpec Proofs.NumLaws Proofs.MatchingProofs Proofs.TrackerFrame Proofs.Identity
  Proofs.Effect Proofs.CallEffect Proofs.CallProps Proofs.CallTheorems Proofs.PointProofs Proofs.FilterTracker Proofs.MatrixProofs
  Spec.CallSpec Spec.PointSpec Spec.PhasesSpec.
Import ListNotations.
Local Open Scope nat_scope.

Lemma mask_assign_none {A} m (z x : list A) : Forall (fun b => b = false) m -> mask_assign m z x = x.
Proof.
  intros H. revert z x. induction H as [|b m -> H IH]; intros [|a z] [|y x]; cbn; auto. f_equal. apply IH.
Qed.
Lemma mask_fill_none {A} m (v : A) (x : list A) : Forall (fun b => b = false) m -> mask_fill m v x = x.
Proof. intros H. revert x. induction H as [|b m -> H IH]; intros [|y x]; cbn; auto. f_equal. apply IH. Qed.

Lemma repeat_each_true d once : Forall (fun b => b = true) once -> Forall (fun b => b = false) (map negb (repeat_each d once)).
Proof.
  intros H. apply Forall_map. unfold repeat_each. apply Forall_forall. intros b Hb. apply in_flat_map in Hb as (x & Hx & Hb).
  apply repeat_spec in Hb as ->. rewrite Forall_forall in H. rewrite (H x Hx). reflexivity.
Qed.
Lemma first_mask_none dim now once : Forall (fun b => b = true) once ->
  Forall (fun b => b = false) (first_detection_mask dim now once).
Proof.
  intros H. apply (repeat_each_true dim) in H. unfold first_detection_mask, map2. apply Forall_map. apply Forall_forall.
  intros [a b] Hab. apply in_combine_r in Hab. rewrite Forall_forall in H. cbn. rewrite (H b Hab). apply andb_false_r.
Qed.
Lemma reset_none {N : Num} dim dimz now once (z x : list N) : Forall (fun b => b = true) once ->
  reset_first_detected dim dimz now once z x = x.
Proof.
  intros H. unfold reset_first_detected. rewrite mask_assign_none, mask_fill_none; [apply firstn_skipn| |].
  - apply repeat_each_true; auto. - apply first_mask_none; auto.
Qed.

Section Replay.
Context {N : Num} {FO : filter_ops N} (laws : NumLaws N).
Notation st := (st FO).
Notation tobj := (tobj FO).
Notation frame := (CallSpec.frame FO).

Lemma sensors_mask thr n dim (d : detection N) : List.length (over_threshold thr n d) = n ->
  repeat_each dim (map (fun m : bool => if m then n1 else n0) (over_threshold thr n d)) = sensors thr n dim d.
Proof.
  intros L. rewrite repeat_each_map. unfold sensors, repeat_each.
  replace (over_threshold thr n d) with (map (aboveb thr d) (seq 0 n)).
  - rewrite !flat_map_concat_map, concat_map, !map_map. f_equal. apply map_ext. intros k. apply map_repeat.
  - apply nth_error_ext. intros k. rewrite nth_error_map. unfold over_threshold, aboveb in *. destruct (d_scores d) as [sc|].
    + rewrite map_length in L. rewrite nth_error_map. destruct (lt_dec k n) as [Hk|Hk].
      * rewrite (nth_error_nth' _ 0) by (rewrite seq_length; auto). rewrite seq_nth by auto. cbn.
        destruct (nth_error sc k) eqn:E; [reflexivity|]. apply nth_error_None in E. lia.
      * rewrite !(proj2 (nth_error_None _ _)); [reflexivity| |]; rewrite ?seq_length; lia.
    + destruct (lt_dec k n) as [Hk|Hk].
      * rewrite nth_error_repeat, (nth_error_nth' _ 0) by (rewrite ?seq_length; auto). reflexivity.
      * rewrite !(proj2 (nth_error_None _ _)); [reflexivity| |]; rewrite ?seq_length, ?repeat_length; lia.
Qed.

Lemma rows_flatten d : 0 < d -> forall n (v : list N), List.length v = d * n ->
  rectangular n d (reshape_rows d v) /\ flatten (reshape_rows d v) = v.
Proof.
  intros Hd n v L. unfold reshape_rows. rewrite L.
  assert (H : forall n (v : list N) fuel, List.length v = d * n -> d * n <= fuel -> rectangular n d (chunks_fuel fuel d v) /\ flatten (chunks_fuel fuel d v) = v).
  { clear -Hd. induction n as [|n IH]; intros v fuel L Hf.
    - destruct v; [|cbn in L; lia]. destruct fuel; repeat split; constructor.
    - destruct fuel as [|fuel]; [lia|]. destruct v as [|a v]; [cbn in L; lia|]. cbn [chunks_fuel].
      destruct (IH (skipn d (a :: v)) fuel) as [[A B] C]; [rewrite skipn_length; lia|lia|].
      unfold flatten in *. cbn [List.concat]. rewrite C, firstn_skipn. split; [|reflexivity]. split; [cbn; rewrite A; reflexivity|].
      constructor; auto. rewrite firstn_length. lia. }
  apply H; auto.
Qed.

Theorem filter_replay c (s : st) f0 fs i wf same n dim : regular FO wf -> rewritable FO wf same ->
  rnd_ok (tc_rnd c) -> tracker_state c s -> tc_reid_distance c = None -> video c s (f0 :: fs) ->
  s_icount (f_pre f0) < i <= s_icount (f_post f0) ->
  let d0 := s_heap (f_post f0) (last_det (f_post f0) i) in
  rectangular n dim (d_absolute_points d0) -> 0 < n -> 0 < dim -> List.length (over_threshold (tc_det_thr c) n d0) = n ->
  (forall k, k < n -> above (tc_det_thr c) d0 k) ->
  (forall f, In f fs -> fresh f i) ->
  forall m g, nth_error (f0 :: fs) m = Some g -> tracked (f_post g) i ->
  same (o_filter (s_store (f_post g) i)) (replay (tc_det_thr c) n dim i (d_absolute_points d0) (firstn m fs)) /\
  oc_dim_points (o_conf (s_store (f_post g) i)) = dim /\ oc_num_points (o_conf (s_store (f_post g) i)) = n /\
  wf (dim * n) (o_filter (s_store (f_post g) i)).
Proof.
  intros R W Hr Ht Nr V Hi d0 RC Hn Hd Lsc Hab Hfr m g Hg Hti.
  set (P := fun (past : list frame) (o : tobj) => exists l, past = f0 :: l /\
     same (o_filter o) (replay (tc_det_thr c) n dim i (d_absolute_points d0) l) /\
     Forall (fun b => b = true) (o_once o) /\ List.length (o_once o) = n /\
     oc_dim_points (o_conf o) = dim /\ oc_num_points (o_conf o) = n /\ wf (dim * n) (o_filter o)).
  assert (X : P (firstn (S m) (f0 :: fs)) (s_store (f_post g) i)).
  { apply (object_history laws c s f0 fs i P Hr Ht Nr V Hi) with (n := m); auto.
    - intros r Hin Er HA NR. exists []. split; [reflexivity|]. destruct (same_age_scores _ _ r HA) as (U1 & U2 & _).
      pose proof (nr_conf _ _ _ _ _ _ _ NR) as Ec. pose proof (nr_once _ _ _ _ _ _ _ NR) as Eon.
      assert (F : fits wf (s_store (f_post f0) i)).
      { eapply fits_new; eauto. exists n, dim. rewrite <- U2, Er. exact RC. }
      assert (E0 : d_absolute_points (ct_heap (f_ct f0) (f_dets f0) (f_pre f0) r) = d_absolute_points d0) by (rewrite <- U2, Er; reflexivity).
      assert (E1 : d_scores (ct_heap (f_ct f0) (f_dets f0) (f_pre f0) r) = d_scores d0) by (rewrite <- U1, Er; reflexivity).
      rewrite E0 in Ec, Eon.
      assert (Ed : oc_dim_points (o_conf (s_store (f_post f0) i)) = dim).
      { rewrite Ec. cbn. destruct RC as [Rn Rf]. destruct (d_absolute_points d0) as [|x l]; [cbn in Rn; lia|].
        inversion Rf; auto. }
      assert (En : oc_num_points (o_conf (s_store (f_post f0) i)) = n) by (rewrite Ec; apply RC).
      assert (Eo : o_once (s_store (f_post f0) i) = over_threshold (tc_det_thr c) n d0).
      { rewrite Eon, (proj1 RC). apply over_threshold_same. exact E1. }
      split; [|split; [|split; [|split; [|split]]]]; auto.
      + unfold replay. cbn. rewrite (nr_filter _ _ _ _ _ _ _ NR), E0. apply (rw_refl _ _ _ W).
      + rewrite Eo. apply Forall_forall. intros b Hb. apply In_nth_error in Hb as [k Hk].
        assert (k < n) by (rewrite <- Lsc; apply nth_error_Some; congruence).
        rewrite (proj2 (over_true _ _ _ k Lsc)) in Hk by auto. congruence.
      + rewrite Eo. exact Lsc.
      + unfold fits, dim_z in F. rewrite Ed, En in F. exact F.
    - intros past f Hf Hp Hc (l & -> & A1 & A2 & A3 & A4 & A5 & A6) Hns U. exists (l ++ [f]). split; [reflexivity|].
      assert (Ef : o_filter (s_store (f_post f) i) = f_predict FO (o_filter (s_store (f_pre f) i))).
      { destruct U as [mm ->]. destruct (f_ct f); reflexivity. }
      assert (Eo : o_once (s_store (f_post f) i) = o_once (s_store (f_pre f) i)).
      { destruct U as [mm ->]. destruct (f_ct f); reflexivity. }
      rewrite (um_conf _ _ U), st_conf, Ef, Eo. repeat split; auto; [|apply (rg_predict _ R); auto].
      unfold replay in *. rewrite fold_left_app. cbn. destruct (in_dec Nat.eq_dec _ _) as [Y|Y]; [exfalso; apply Hns; split; auto|].
      apply (rw_predict _ _ _ W). exact A1.
    - intros past f r dist om Hf Hp Hc (l & -> & A1 & A2 & A3 & A4 & A5 & A6) Hin Er HA U (o1 & F1 & F2).
      exists (l ++ [f]). split; [reflexivity|]. destruct (same_age_scores _ _ r HA) as (U1 & U2 & _).
      assert (Ef : o_filter om = f_predict FO (o_filter (s_store (f_pre f) i))).
      { destruct U as [mm ->]. destruct (f_ct f); reflexivity. }
      assert (Eo : o_once om = o_once (s_store (f_pre f) i)).
      { destruct U as [mm ->]. destruct (f_ct f); reflexivity. }
      assert (Ec : o_conf om = o_conf (s_store (f_pre f) i)) by (rewrite (um_conf _ _ U), st_conf; reflexivity).
      pose proof (hr_conf _ _ _ _ _ F1) as Ec1. pose proof (hr_filter _ _ _ _ _ F1) as Ef1. cbv zeta in Ef1.
      pose proof (hr_mask_len _ _ _ _ _ F1) as Lm. pose proof (hr_dim _ _ _ _ _ F1) as Ld.
      pose proof (hr_once _ _ _ _ _ F1) as Eo1. pose proof (fun Fm => fits_hit wf _ _ _ _ _ R Fm F1) as FH.
      assert (Fm : fits wf om).
      { unfold fits, dim_z. rewrite Ec, A4, A5, Ef. apply (rg_predict _ R). exact A6. }
      specialize (FH Fm). unfold fits, dim_z in FH. rewrite Ec1, Ec, A4, A5 in FH.
      set (dd := s_heap (f_post f) r) in *.
      set (hd := ct_heap (f_ct f) (f_dets f) (f_pre f) r) in *.
      assert (Eov : forall t k, over_threshold t k hd = over_threshold t k dd) by (intros; apply over_threshold_same; auto).
      unfold dim_z in Ld, Ef1. rewrite Ec, A4, A5, (co_thr _ _ Hc) in Ef1. rewrite Ec, A5, (co_thr _ _ Hc) in Lm. rewrite Ec, A5, (co_thr _ _ Hc) in Eo1. rewrite Ec, A4, A5 in Ld.
      rewrite Eov in Lm. rewrite Eov in Eo1. rewrite !Eov in Ef1. rewrite <- U2 in Ld. rewrite <- !U2 in Ef1. rewrite Eo in Ef1, Eo1.
      rewrite reset_none in Ef1 by auto.
      rewrite F2. cbn [o_filter o_once o_conf set_last_distance]. rewrite Ec1, Ec. repeat split; auto.
      + unfold replay in *. rewrite fold_left_app. cbn. rewrite <- Er. destruct (in_dec Nat.eq_dec r (f_dets f)) as [Y|Y]; [|contradiction].
        fold dd. rewrite Ef1, (sensors_mask _ _ _ _ Lm). eapply (rw_trans _ _ _ W).
        * apply (rw_back _ _ _ W (dim * n)). apply (rg_update _ R); [rewrite Ef; apply (rg_predict _ R); exact A6|exact Ld|].
          rewrite <- (sensors_mask _ _ _ _ Lm), repeat_each_length, map_length, Lm. reflexivity.
        * rewrite Ef. apply (rw_update _ _ _ W). apply (rw_predict _ _ _ W). exact A1.
      + rewrite Eo1. unfold map2. apply Forall_map. apply Forall_forall. intros [a b] Hc'. apply in_combine_l in Hc'.
        rewrite Forall_forall in A2. cbn. rewrite (A2 _ Hc'). reflexivity.
      + rewrite Eo1, map2_length, A3, Lm. lia. }
  destruct X as (l & El & A1 & A2 & A3 & A4 & A5 & A6). cbn in El. injection El as <-. auto.
Qed.

(** C55 *)
Theorem estimate_replay c (s : st) f0 fs i wf same n dim : regular FO wf -> rewritable FO wf same ->
  rnd_ok (tc_rnd c) -> tracker_state c s -> tc_reid_distance c = None -> video c s (f0 :: fs) ->
  s_icount (f_pre f0) < i <= s_icount (f_post f0) ->
  let d0 := s_heap (f_post f0) (last_det (f_post f0) i) in
  rectangular n dim (d_absolute_points d0) -> 0 < n -> 0 < dim -> (forall sc, d_scores d0 = Some sc -> List.length sc = n) ->
  (forall k, k < n -> above (tc_det_thr c) d0 k) ->
  (forall f, In f fs -> fresh f i) ->
  forall m g, nth_error (f0 :: fs) m = Some g -> tracked (f_post g) i ->
  let x := f_x FO (replay (tc_det_thr c) n dim i (d_absolute_points d0) (firstn m fs)) in
  let o := s_store (f_post g) i in
  rectangular n dim (absolute_estimate o) /\ rectangular n dim (estimate_velocity o) /\
  x = List.concat (absolute_estimate o) ++ List.concat (estimate_velocity o).
Proof.
  intros R W Hr Ht Nr V Hi d0 RC Hn Hd Lsc Hab Hfr m g Hg Hti x o.
  assert (L : List.length (over_threshold (tc_det_thr c) n d0) = n).
  { unfold over_threshold. destruct (d_scores d0) as [sc|]; [rewrite map_length; auto|apply repeat_length]. }
  destruct (filter_replay c s f0 fs i wf same n dim R W Hr Ht Nr V Hi RC Hn Hd L Hab Hfr m g Hg Hti) as (A & B & C & D).
  fold d0 in A. apply (rw_x _ _ _ W) in A. fold x in A. fold o in A, B, C, D.
  pose proof (rg_x _ R _ _ D) as Lx.
  rewrite absolute_estimate_eq. unfold estimate_velocity, dim_z. rewrite B, C.
  destruct (rows_flatten dim Hd n (firstn (dim * n) (f_x FO (o_filter o)))) as [X1 X2]; [rewrite firstn_length; lia|].
  destruct (rows_flatten dim Hd n (skipn (dim * n) (f_x FO (o_filter o)))) as [Y1 Y2]; [rewrite skipn_length; lia|].
  unfold flatten in X2, Y2. rewrite X2, Y2, firstn_skipn. auto.
Qed.
End Replay.

(* ---- the three filters ---- *)
Lemma nf_rewritable {N : Num} wf : rewritable (nofilter_ops N) wf eq.
Proof.
  constructor; intros; subst; auto. destruct f; reflexivity.
Qed.
Lemma okf_rewritable {N : Num} (p : okf_params N) wf : rewritable (okf_ops p) wf eq.
Proof. constructor; intros; subst; auto. destruct f; reflexivity. Qed.

Definition fp_same (f g : fp_filter) : Prop :=
  fpf_dim_z f = fpf_dim_z g /\ fpf_params f = fpf_params g /\ kP (fpf_state f) = kP (fpf_state g) /\
  forall k, k < 2 * fpf_dim_z f -> kx (fpf_state f) k = kx (fpf_state g) k.

Lemma fp_rewritable inv (p : fp_params) wf : rewritable (fp_ops inv p) wf fp_same.
Proof.
  constructor.
  - intros f. repeat split.
  - intros f g h (A & B & C & D) (A' & B' & C' & D'). split; [congruence|split; [congruence|split; [congruence|]]].
    intros k Hk. rewrite D, D' by (rewrite <- ?A; auto). reflexivity.
  - intros f g (A & B & C & D). cbn. unfold fp_x. rewrite <- A. apply map_ext_in. intros k Hk. apply in_seq in Hk. apply D. lia.
  - intros f g (A & B & C & D). cbn. unfold fp_predict. split; [exact A|split; [exact B|split]].
    + cbn. rewrite A, B, C. reflexivity.
    + cbn. intros k Hk. rewrite <- A. unfold mvec. apply sum_ext. intros j Hj. rewrite D by (cbn; lia). reflexivity.
  - intros f g z m (A & B & C & D). cbn. unfold fp_update. split; [exact A|split; [exact B|split]].
    + cbn. rewrite A, B, C. reflexivity.
    + cbn. intros k Hk. rewrite <- A, <- B, <- C. unfold vadd. rewrite D by (cbn in *; lia). f_equal. unfold mvec at 1 3. apply sum_ext. intros j Hj.
      f_equal. unfold vsub. f_equal. unfold mvec. apply sum_ext. intros l Hl. rewrite D by (cbn; lia). reflexivity.
  - intros d f _. cbn. unfold fp_set_x. split; [reflexivity|split; [reflexivity|split; [reflexivity|]]].
    cbn. intros k Hk. unfold fp_x. rewrite (nth_indep _ _ (kx (fpf_state f) 0)) by (rewrite map_length, seq_length; cbn; lia).
    rewrite map_nth, seq_nth by (cbn; lia). reflexivity.
Qed.

Lemma filters_start_at_rest {N : Num} (pk : okf_params N) (inv : nat -> mat -> mat) (pf : fp_params) :
  starts_at_rest (nofilter_ops N) /\ starts_at_rest (okf_ops pk) /\ starts_at_rest (fp_ops inv pf).
Proof.
  split; [intros p; reflexivity|]. split; [intros p; reflexivity|].
  intros p. cbn. unfold fp_x. cbn [fpf_dim_z fpf_state fp_create kx].
  set (z := flatten (N := RNum) p). change (num RNum) with R in *. set (d := @length R z).
  replace (2 * d) with (d + d) by lia. rewrite seq_app, map_app. cbn [Nat.add]. f_equal.
  - rewrite (map_ext_in _ (fun i => nth i z 0%R)).
    + clear. subst d. induction z as [|a z IH]; [reflexivity|]. cbn. f_equal. rewrite <- seq_shift, map_map. exact IH.
    + intros k Hk. apply in_seq in Hk. change (match d with 0 => false | S m' => k <=? m' end) with (k <? d). rewrite (proj2 (Nat.ltb_lt k d)) by lia. reflexivity.
  - rewrite (map_ext_in _ (fun _ => 0%R)).
    + generalize d at 1. induction d as [|k IH]; intros j; [reflexivity|]. cbn. f_equal. apply IH.
    + intros k Hk. apply in_seq in Hk. change (match d with 0 => false | S m' => k <=? m' end) with (k <? d). rewrite (proj2 (Nat.ltb_ge k d)) by lia. reflexivity.
Qed.

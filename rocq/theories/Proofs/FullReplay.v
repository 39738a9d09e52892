(** The filter of an object is a replay of the detections matched to it, with the writes of [hit]. *)
From Coq Require Import ZArith Bool Arith String List Lia.
From Verif Require Import Model.Num Model.Base Model.Matching Model.Filter Model.Tracker
  Spec.MatchingSpec Spec.IdentitySpec Proofs.NumLaws Proofs.MatchingProofs Proofs.TrackerFrame Proofs.Identity
  Proofs.Effect Proofs.CallEffect Proofs.CallProps Proofs.CallTheorems Proofs.CallTheorems6 Proofs.PointProofs Proofs.ReplayProofs
  Spec.CallSpec Spec.PointSpec Spec.PhasesSpec Spec.FullReplaySpec.
Import ListNotations.
Local Open Scope nat_scope.

Section Full.
Context {N : Num} {FO : filter_ops N} (laws : NumLaws N).
Notation st := (st FO).
Notation tobj := (tobj FO).
Notation frame := (CallSpec.frame FO).

Lemma over_aboveb thr n (d : detection N) k b : List.length (over_threshold thr n d) = n -> k < n ->
  nth k (over_threshold thr n d) b = aboveb thr d k.
Proof.
  intros L Hk. unfold over_threshold, aboveb in *. destruct (d_scores d) as [sc|].
  - rewrite map_length in L. destruct (nth_error sc k) as [x|] eqn:E; [|apply nth_error_None in E; lia].
    apply nth_error_nth. rewrite nth_error_map, E. reflexivity.
  - apply nth_error_nth, nth_error_repeat. auto.
Qed.
Lemma nth_error_seq_map {A} (g : nat -> A) m k : nth_error (map g (seq 0 m)) k = if k <? m then Some (g k) else None.
Proof.
  destruct (k <? m) eqn:E.
  - apply Nat.ltb_lt in E. rewrite nth_error_map, (nth_error_nth' _ 0), seq_nth by (rewrite ?seq_length; auto). reflexivity.
  - apply Nat.ltb_ge in E. apply nth_error_None. rewrite map_length, seq_length. auto.
Qed.

Lemma reset_overwritten thr n dim ds (d : detection N) once (x : list N) : 0 < dim ->
  List.length (over_threshold thr n d) = n -> List.length once = n ->
  (forall k b, k < n -> nth k once b = seen_in thr ds k) ->
  List.length (concat (d_absolute_points d)) = dim * n -> List.length x = 2 * (dim * n) ->
  reset_first_detected dim (dim * n) (over_threshold thr n d) once (concat (d_absolute_points d)) x = overwritten thr n dim ds d x.
Proof.
  intros Hd Lm Lo Ho Lz Lx. unfold reset_first_detected, overwritten.
  assert (Dv : forall c, c < dim * n -> c / dim < n) by (intros; apply Nat.div_lt_upper_bound; lia).
  assert (Md : forall c, c < dim * n -> c mod n < n) by (intros; apply Nat.mod_upper_bound; destruct n; lia).
  f_equal; apply nth_error_ext; intros c; rewrite nth_error_seq_map; destruct (c <? dim * n) eqn:E.
  - apply Nat.ltb_lt in E.
    rewrite mask_assign_nth by (rewrite ?first_mask_length, ?firstn_length; try lia; congruence).
    rewrite nth_error_first_mask by (rewrite ?Lm; auto; congruence). rewrite Lm, over_aboveb, Ho by auto.
    destruct (aboveb thr d (c mod n) && negb (seen_in thr ds (c / dim))).
    + apply nth_error_nth'. lia.
    + rewrite nth_error_firstn, (proj2 (Nat.ltb_lt _ _) E). apply nth_error_nth'. lia.
  - apply Nat.ltb_ge in E. apply nth_error_None. rewrite mask_assign_length, firstn_length. lia.
  - apply Nat.ltb_lt in E.
    rewrite mask_fill_nth by (rewrite map_length, repeat_each_length, skipn_length; lia).
    rewrite nth_error_map, nth_error_repeat_each by auto. rewrite (nth_error_nth' once false) by (rewrite Lo; auto).
    rewrite Ho by auto. cbn [option_map]. destruct (seen_in thr ds (c / dim)); cbn; [|reflexivity].
    rewrite nth_error_skipn. apply nth_error_nth'. lia.
  - apply Nat.ltb_ge in E. apply nth_error_None. rewrite mask_fill_length, skipn_length. lia.
Qed.

Theorem filter_full_replay c (s : st) f0 fs i wf n dim : regular FO wf ->
  rnd_ok (tc_rnd c) -> tracker_state c s -> tc_reid_distance c = None -> video c s (f0 :: fs) ->
  s_icount (f_pre f0) < i <= s_icount (f_post f0) ->
  let d0 := s_heap (f_post f0) (last_det (f_post f0) i) in
  rectangular n dim (d_absolute_points d0) -> 0 < n -> 0 < dim ->
  List.length (over_threshold (tc_det_thr c) n d0) = n -> (forall f, In f fs -> fresh f i) ->
  forall m g, nth_error (f0 :: fs) m = Some g -> tracked (f_post g) i ->
  let past := full_replay (tc_det_thr c) n dim i d0 (firstn m fs) in
  let o := s_store (f_post g) i in
  o_filter o = fst past /\ (forall k, k < n -> nth_error (o_once o) k = Some (seen_in (tc_det_thr c) (snd past) k)) /\
  oc_dim_points (o_conf o) = dim /\ oc_num_points (o_conf o) = n /\ wf (dim * n) (o_filter o).
Proof.
  intros R Hr Ht Nr V Hi d0 RC Hn Hd Lsc Hfr m g Hg Hti.
  set (thr := tc_det_thr c) in *.
  set (P := fun (past : list frame) (o : tobj) => exists l, past = f0 :: l /\
     o_filter o = fst (full_replay thr n dim i d0 l) /\
     (forall k, k < n -> nth_error (o_once o) k = Some (seen_in thr (snd (full_replay thr n dim i d0 l)) k)) /\
     List.length (o_once o) = n /\
     oc_dim_points (o_conf o) = dim /\ oc_num_points (o_conf o) = n /\ wf (dim * n) (o_filter o)).
  assert (X : P (firstn (S m) (f0 :: fs)) (s_store (f_post g) i)).
  { apply (object_history laws c s f0 fs i P Hr Ht Nr V Hi) with (n := m); auto.
    - intros r Hin Er HA NR. exists []. split; [reflexivity|]. destruct (same_age_scores _ _ r HA) as (U1 & U2 & _).
      pose proof (nr_conf _ _ _ _ _ _ _ NR) as Ec. pose proof (nr_once _ _ _ _ _ _ _ NR) as Eon.
      assert (F : fits wf (s_store (f_post f0) i)).
      { eapply fits_new; [exact R|exact NR|]. exists n, dim. rewrite <- U2, Er. exact RC. }
      assert (E0 : d_absolute_points (ct_heap (f_ct f0) (f_dets f0) (f_pre f0) r) = d_absolute_points d0) by (rewrite <- U2, Er; reflexivity).
      assert (E1 : d_scores (ct_heap (f_ct f0) (f_dets f0) (f_pre f0) r) = d_scores d0) by (rewrite <- U1, Er; reflexivity).
      rewrite E0 in Ec, Eon.
      assert (Ed : oc_dim_points (o_conf (s_store (f_post f0) i)) = dim).
      { rewrite Ec. cbn. destruct RC as [Rn Rf]. destruct (d_absolute_points d0) as [|x l]; [cbn in Rn; lia|].
        inversion Rf; auto. }
      assert (En : oc_num_points (o_conf (s_store (f_post f0) i)) = n) by (rewrite Ec; apply RC).
      assert (Eo : o_once (s_store (f_post f0) i) = over_threshold thr n d0).
      { rewrite Eon, (proj1 RC). apply over_threshold_same. exact E1. }
      split; [|split; [|split; [|split; [|split]]]]; auto.
      + cbn. rewrite (nr_filter _ _ _ _ _ _ _ NR), E0. reflexivity.
      + intros k Hk. rewrite Eo, (nth_error_nth' _ false), over_aboveb by (rewrite ?Lsc; auto). cbn. rewrite orb_false_r. reflexivity.
      + rewrite Eo. exact Lsc.
      + unfold fits, dim_z in F. rewrite Ed, En in F. exact F.
    - intros past f Hf Hp Hc (l & -> & A1 & A2 & A3 & A4 & A5 & A6) Hns U. exists (l ++ [f]). split; [reflexivity|].
      assert (Ef : o_filter (s_store (f_post f) i) = f_predict FO (o_filter (s_store (f_pre f) i))).
      { destruct U as [mm ->]. destruct (f_ct f); reflexivity. }
      assert (Eo : o_once (s_store (f_post f) i) = o_once (s_store (f_pre f) i)).
      { destruct U as [mm ->]. destruct (f_ct f); reflexivity. }
      rewrite (um_conf _ _ U), st_conf, Ef, Eo. unfold full_replay in *. rewrite fold_left_app. cbn [fold_left].
      destruct (in_dec Nat.eq_dec _ _) as [Y|Y]; [exfalso; apply Hns; split; auto|]. cbn [fst snd].
      repeat split; auto; [rewrite A1; reflexivity|apply (rg_predict _ R); auto].
    - intros past f r dist om Hf Hp Hc (l & -> & A1 & A2 & A3 & A4 & A5 & A6) Hin Er HA U (o1 & F1 & F2).
      exists (l ++ [f]). split; [reflexivity|]. destruct (same_age_scores _ _ r HA) as (U1 & U2 & _).
      assert (Ef : o_filter om = f_predict FO (o_filter (s_store (f_pre f) i))).
      { destruct U as [mm ->]. destruct (f_ct f); reflexivity. }
      assert (Eo : o_once om = o_once (s_store (f_pre f) i)).
      { destruct U as [mm ->]. destruct (f_ct f); reflexivity. }
      assert (Ec : o_conf om = o_conf (s_store (f_pre f) i)) by (rewrite (um_conf _ _ U), st_conf; reflexivity).
      pose proof (hr_conf _ _ _ _ _ F1) as Ec1. pose proof (hr_filter _ _ _ _ _ F1) as Ef1. cbv zeta in Ef1.
      pose proof (hr_mask_len _ _ _ _ _ F1) as Lm. pose proof (hr_dim _ _ _ _ _ F1) as Ld.
      pose proof (hr_once _ _ _ _ _ F1) as Eo1. pose proof (fun Fm => fits_hit wf _ _ _ _ _ R Fm F1) as FH.
      assert (Fm : fits wf om).
      { unfold fits, dim_z. rewrite Ec, A4, A5, Ef. apply (rg_predict _ R). exact A6. }
      specialize (FH Fm). unfold fits, dim_z in FH. rewrite Ec1, Ec, A4, A5 in FH.
      set (dd := s_heap (f_post f) r) in *.
      set (hd := ct_heap (f_ct f) (f_dets f) (f_pre f) r) in *.
      assert (Eov : forall t k, over_threshold t k hd = over_threshold t k dd) by (intros; apply over_threshold_same; auto).
      unfold dim_z in Ld, Ef1. rewrite Ec, A4, A5, (co_thr _ _ Hc) in Ef1. rewrite Ec, A5, (co_thr _ _ Hc) in Lm. rewrite Ec, A5, (co_thr _ _ Hc) in Eo1. rewrite Ec, A4, A5 in Ld.
      rewrite Eov in Lm. rewrite Eov in Eo1. rewrite !Eov in Ef1. rewrite <- U2 in Ld. rewrite <- !U2 in Ef1. rewrite Eo in Ef1, Eo1.
      fold thr in Lm, Eo1, Ef1. unfold flatten in Ef1, Ld.
      rewrite (sensors_mask _ _ _ _ Lm) in Ef1. rewrite Ef, A1 in Ef1.
      assert (Ls : List.length (sensors thr n dim dd) = dim * n).
      { rewrite <- (sensors_mask _ _ _ _ Lm), repeat_each_length, map_length, Lm. reflexivity. }
      rewrite (reset_overwritten thr n dim (snd (full_replay thr n dim i d0 l)) dd) in Ef1; auto.
      2:{ intros k b Hk. apply nth_error_nth, A2. auto. }
      2:{ apply (rg_x _ R (dim * n)). apply (rg_update _ R); [|exact Ld|exact Ls]. apply (rg_predict _ R). rewrite <- A1. exact A6. }
      rewrite F2. cbn [o_filter o_once o_conf set_last_distance]. rewrite Ec1, Ec.
      unfold full_replay in *. rewrite fold_left_app. cbn [fold_left]. rewrite <- Er.
      destruct (in_dec Nat.eq_dec r (f_dets f)) as [Y|Y]; [|contradiction]. fold dd. cbn [fst snd].
      repeat split; auto.
      + intros k Hk. rewrite Eo1. unfold seen_in. rewrite existsb_app. cbn [existsb]. rewrite orb_false_r.
        apply nth_error_map2; [apply A2; auto|]. rewrite (nth_error_nth' _ false), over_aboveb by (rewrite ?Lm; auto). reflexivity.
      + rewrite Eo1, map2_length, A3, Lm. lia. }
  destruct X as (l & El & A1 & A2 & A3 & A4 & A5 & A6). cbn in El. injection El as <-. auto.
Qed.

(** C26 *)
Theorem estimate_full_replay c (s : st) f0 fs i wf n dim : regular FO wf ->
  rnd_ok (tc_rnd c) -> tracker_state c s -> tc_reid_distance c = None -> video c s (f0 :: fs) ->
  s_icount (f_pre f0) < i <= s_icount (f_post f0) ->
  let d0 := s_heap (f_post f0) (last_det (f_post f0) i) in
  rectangular n dim (d_absolute_points d0) -> 0 < n -> 0 < dim -> (forall sc, d_scores d0 = Some sc -> List.length sc = n) ->
  (forall f, In f fs -> fresh f i) ->
  forall m g, nth_error (f0 :: fs) m = Some g -> tracked (f_post g) i ->
  let x := f_x FO (fst (full_replay (tc_det_thr c) n dim i d0 (firstn m fs))) in
  let o := s_store (f_post g) i in
  rectangular n dim (absolute_estimate o) /\ rectangular n dim (estimate_velocity o) /\
  x = List.concat (absolute_estimate o) ++ List.concat (estimate_velocity o).
Proof.
  intros R Hr Ht Nr V Hi d0 RC Hn Hd Lsc Hfr m g Hg Hti x o.
  assert (L : List.length (over_threshold (tc_det_thr c) n d0) = n).
  { unfold over_threshold. destruct (d_scores d0) as [sc|]; [rewrite map_length; auto|apply repeat_length]. }
  destruct (filter_full_replay c s f0 fs i wf n dim R Hr Ht Nr V Hi RC Hn Hd L Hfr m g Hg Hti) as (A & _ & B & C & D).
  fold d0 in A. subst x. rewrite <- A. fold o in B, C, D |- *.
  pose proof (rg_x _ R _ _ D) as Lx.
  rewrite absolute_estimate_eq. unfold estimate_velocity, dim_z. rewrite B, C.
  destruct (rows_flatten dim Hd n (firstn (dim * n) (f_x FO (o_filter o)))) as [X1 X2]; [rewrite firstn_length; lia|].
  destruct (rows_flatten dim Hd n (skipn (dim * n) (f_x FO (o_filter o)))) as [Y1 Y2]; [rewrite skipn_length; lia|].
  unfold flatten in X2, Y2. rewrite X2, Y2, firstn_skipn. auto.
Qed.
End Full.

(** C25, C26, C35, C37: points and scores. *)
From Coq Require Import ZArith QArith Qcanon Bool List Arith Lia Reals.
From Verif Require Import Model.Num Model.Base Model.Matching Model.Filter Model.KalmanMatrix Model.Tracker
  Spec.PointSpec Spec.KalmanSpec Spec.ExampleVideo Spec.ExamplePoints
  Proofs.NumLaws Proofs.Effect Proofs.PointProofs Proofs.FilterTracker Proofs.RingNums Proofs.KalmanTheorems
  Spec.PhasesSpec Spec.FullReplaySpec Proofs.FullReplay Proofs.UnseenLaw.
From Verif Require Import Spec.CallSpec.
Import ListNotations.
Local Open Scope nat_scope.

(** Which filters the theorems below apply to: for numbers with the laws of a ring, NoFilter and the optimized
    filter; over the reals also filterpy's filter. *)
Theorem C25_filters_nofilter (N : Num) : ring_num N -> exists wf, regular (nofilter_ops N) wf /\ steady (nofilter_ops N) wf /\ ignores_unmeasured (nofilter_ops N) wf.
Proof. intros H. exact (ex_intro _ nf_wf (conj nf_regular (conj (nf_steady H) (nf_ignores H)))). Qed.
Print Assumptions C25_filters_nofilter.
Theorem C25_filters_optimized (N : Num) (p : okf_params N) : ring_num N ->
  exists wf, regular (okf_ops p) wf /\ steady (okf_ops p) wf /\ ignores_unmeasured (okf_ops p) wf.
Proof. intros H. exact (ex_intro _ okf_wf (conj (okf_regular p) (conj (okf_steady H p) (okf_ignores H p)))). Qed.
Print Assumptions C25_filters_optimized.
Theorem C25_filters_filterpy inv (p : fp_params) : inverts_diagonal inv -> (0 < fp_R p)%R -> (0 <= fp_Q p)%R -> (0 <= fp_P p)%R ->
  exists wf, regular (fp_ops inv p) wf /\ steady (fp_ops inv p) wf /\ ignores_unmeasured (fp_ops inv p) wf.
Proof. intros A B C D. exact (ex_intro _ (fp_wf p) (conj (fp_regular inv p A B C D) (conj (fp_steady inv p A B C D) (fp_ignores inv p A B)))). Qed.
Print Assumptions C25_filters_filterpy.

(** C25 for masks that do not trigger the mixed-up reset (see the refutation below): the last hypothesis holds
    when points have dimension 1, when all points were detected before, or when all are detected now.
    Two continuations of the same history whose detections differ only in points that are not above the threshold
    give the same estimates and velocities. *)
Theorem C25_unseen_points_ignored_partial (N : Num) (laws : NumLaws N) (FO : filter_ops N) (c : tconf FO) (s : st FO) f0 fs f i wf
    h1 h2 g1 g2 dets1 dets2 p1 p2 ct s1' s2' out1 out2 :
  regular FO wf -> ignores_unmeasured FO wf -> rnd_ok (tc_rnd c) -> tracker_state c s -> tc_reid_distance c = None ->
  video c s (f0 :: fs) -> s_icount (f_pre f0) < i <= s_icount (f_post f0) ->
  (exists n d, rectangular n d (d_absolute_points (s_heap (f_post f0) (last_det (f_post f0) i)))) ->
  In f (f0 :: fs) -> tracked (f_post f) i -> s_gcount (f_post f) <= g1 -> s_gcount (f_post f) <= g2 ->
  let s0 := f_post f in
  update c (Some dets1) p1 ct (meanwhile s0 h1 g1) = (s1', Ret out1) ->
  update c (Some dets2) p2 ct (meanwhile s0 h2 g2) = (s2', Ret out2) ->
  ~ In (last_det s0 i) dets1 -> ~ In (last_det s0 i) dets2 -> In (last_det s1' i) dets1 -> In (last_det s2' i) dets2 ->
  let d1 := s_heap s1' (last_det s1' i) in
  let d2 := s_heap s2' (last_det s2' i) in
  let thr := tc_det_thr c in
  agree_above thr d1 d2 ->
  rectangular (num_points s0 i) (dim_points s0 i) (d_absolute_points d1) ->
  (forall k, k < dim_points s0 i * num_points s0 i -> above thr d1 (k mod num_points s0 i) ->
     detected_before s0 i (k / dim_points s0 i) \/ above thr d1 (k / dim_points s0 i)) ->
  (forall absolute, get_estimate (s_store s1' i) absolute = get_estimate (s_store s2' i) absolute) /\
  estimate_velocity (s_store s1' i) = estimate_velocity (s_store s2' i).
Proof. exact (ignored_points_history laws c s f0 fs f i wf h1 h2 g1 g2 dets1 dets2 p1 p2 ct s1' s2' out1 out2). Qed.
Print Assumptions C25_unseen_points_ignored_partial.

(** C26.  The velocity part always holds; the position part holds when the points (k*dim+j) mod n are detected
    (for dim = 1 this is just point k itself; it also holds when all points are detected). *)
Theorem C26_first_detection_partial (N : Num) (laws : NumLaws N) (FO : filter_ops N) (c : tconf FO) (s : st FO) f0 fs i wf :
  regular FO wf -> rnd_ok (tc_rnd c) -> tracker_state c s ->
  tc_reid_distance c = None -> video c s (f0 :: fs) -> s_icount (f_pre f0) < i <= s_icount (f_post f0) ->
  (exists n d, rectangular n d (d_absolute_points (s_heap (f_post f0) (last_det (f_post f0) i)))) ->
  forall f, In f fs -> tracked (f_post f) i -> seen f i -> fresh f i ->
  let d := s_heap (f_post f) (last_det (f_post f) i) in
  let n := num_points (f_pre f) i in
  let dim := dim_points (f_pre f) i in
  rectangular n dim (d_absolute_points d) -> 0 < dim ->
  forall k, k < n -> ~ detected_before (f_pre f) i k ->
  nth_error (estimate_velocity (s_store (f_post f) i)) k = Some (repeat n0 dim) /\
  ((forall j, j < dim -> above (tc_det_thr c) d ((k * dim + j) mod n)) ->
   nth_error (absolute_estimate (s_store (f_post f) i)) k = nth_error (d_absolute_points d) k).
Proof. exact (first_detection laws c s f0 fs i wf). Qed.
Print Assumptions C26_first_detection_partial.

(** The exact law behind C25, for all masks: the velocities are the same, and a coordinate of the estimates depends on
    unseen points only if its point was never detected before and point (k*dim+j) mod n is detected now, in which case
    it is the coordinate of the detection. *)
Theorem C25_unseen_points_law (N : Num) (laws : NumLaws N) (FO : filter_ops N) (c : tconf FO) (s : st FO) f0 fs f i wf
    h1 h2 g1 g2 dets1 dets2 p1 p2 ct s1' s2' out1 out2 :
  regular FO wf -> ignores_unmeasured FO wf -> rnd_ok (tc_rnd c) -> tracker_state c s -> tc_reid_distance c = None ->
  video c s (f0 :: fs) -> s_icount (f_pre f0) < i <= s_icount (f_post f0) ->
  (exists n d, rectangular n d (d_absolute_points (s_heap (f_post f0) (last_det (f_post f0) i)))) ->
  In f (f0 :: fs) -> tracked (f_post f) i -> s_gcount (f_post f) <= g1 -> s_gcount (f_post f) <= g2 ->
  let s0 := f_post f in
  update c (Some dets1) p1 ct (meanwhile s0 h1 g1) = (s1', Ret out1) ->
  update c (Some dets2) p2 ct (meanwhile s0 h2 g2) = (s2', Ret out2) ->
  ~ In (last_det s0 i) dets1 -> ~ In (last_det s0 i) dets2 -> In (last_det s1' i) dets1 -> In (last_det s2' i) dets2 ->
  let d1 := s_heap s1' (last_det s1' i) in
  let d2 := s_heap s2' (last_det s2' i) in
  let thr := tc_det_thr c in
  let n := num_points s0 i in
  let dim := dim_points s0 i in
  agree_above thr d1 d2 -> rectangular n dim (d_absolute_points d1) -> 0 < dim ->
  let e1 := absolute_estimate (s_store s1' i) in
  let e2 := absolute_estimate (s_store s2' i) in
  estimate_velocity (s_store s1' i) = estimate_velocity (s_store s2' i) /\
  forall k j, k < n -> j < dim ->
    (detected_before s0 i k \/ ~ above thr d1 ((k * dim + j) mod n) -> coordinate e1 k j = coordinate e2 k j) /\
    (~ detected_before s0 i k -> above thr d1 ((k * dim + j) mod n) ->
       coordinate e1 k j = coordinate (d_absolute_points d1) k j /\ coordinate e2 k j = coordinate (d_absolute_points d2) k j).
Proof. exact (unseen_points_law laws c s f0 fs f i wf h1 h2 g1 g2 dets1 dets2 p1 p2 ct s1' s2' out1 out2). Qed.
Print Assumptions C25_unseen_points_law.

(** The exact law behind C25 and C26: whichever points are detected, the estimate is that of a filter with one
    prediction per call, one correction per matched detection, and the changes of [overwritten] after the correction. *)
Theorem C26_estimate_law (N : Num) (laws : NumLaws N) (FO : filter_ops N) (c : tconf FO) (s : st FO) f0 fs i wf n dim :
  regular FO wf -> rnd_ok (tc_rnd c) -> tracker_state c s -> tc_reid_distance c = None -> video c s (f0 :: fs) ->
  s_icount (f_pre f0) < i <= s_icount (f_post f0) ->
  let d0 := s_heap (f_post f0) (last_det (f_post f0) i) in
  rectangular n dim (d_absolute_points d0) -> 0 < n -> 0 < dim -> (forall sc, d_scores d0 = Some sc -> length sc = n) ->
  (forall f, In f fs -> fresh f i) ->
  forall m g, nth_error (f0 :: fs) m = Some g -> tracked (f_post g) i ->
  let x := f_x FO (fst (full_replay (tc_det_thr c) n dim i d0 (firstn m fs))) in
  let o := s_store (f_post g) i in
  rectangular n dim (absolute_estimate o) /\ rectangular n dim (estimate_velocity o) /\
  x = concat (absolute_estimate o) ++ concat (estimate_velocity o).
Proof. exact (estimate_full_replay laws c s f0 fs i wf n dim). Qed.
Print Assumptions C26_estimate_law.

(** C35: an object all of whose detections have the same absolute points [P] stays at [P] with velocity 0. *)
Theorem C35_static_object (N : Num) (laws : NumLaws N) (FO : filter_ops N) (c : tconf FO) (s : st FO) f0 fs i wf n dim (P : points N) :
  regular FO wf -> steady FO wf -> rnd_ok (tc_rnd c) -> tracker_state c s ->
  tc_reid_distance c = None -> video c s (f0 :: fs) -> s_icount (f_pre f0) < i <= s_icount (f_post f0) ->
  rectangular n dim P -> 0 < dim -> 0 < n ->
  (forall f, In f (f0 :: fs) -> seen f i -> d_absolute_points (s_heap (f_post f) (last_det (f_post f) i)) = P) ->
  forall f, In f (f0 :: fs) -> tracked (f_post f) i ->
  absolute_estimate (s_store (f_post f) i) = P /\
  estimate_velocity (s_store (f_post f) i) = repeat (repeat n0 dim) n.
Proof. exact (static_object laws c s f0 fs i wf n dim P). Qed.
Print Assumptions C35_static_object.

(** C37: [f] is the call in which point [k] was above the threshold for the last time up to call number [m]
    (the object's first call, or a later one in which it got a new detection). *)
Theorem C37_nofilter_last_seen (N : Num) (laws : NumLaws N) (rt : ring_num N) (c : tconf (nofilter_ops N)) (s : st (nofilter_ops N)) f0 fs i n dim :
  rnd_ok (tc_rnd c) -> tracker_state c s ->
  tc_reid_distance c = None -> video c s (f0 :: fs) -> s_icount (f_pre f0) < i <= s_icount (f_post f0) -> 0 < dim -> 0 < n ->
  (forall f, In f (f0 :: fs) -> seen f i -> rectangular n dim (d_absolute_points (det_of f i))) ->
  forall m g, nth_error (f0 :: fs) m = Some g -> tracked (f_post g) i ->
  estimate_velocity (s_store (f_post g) i) = repeat (repeat n0 dim) n /\
  forall before f after k, firstn (S m) (f0 :: fs) = before ++ f :: after -> (before = [] \/ (seen f i /\ fresh f i)) -> k < n ->
    above (tc_det_thr c) (det_of f i) k -> (forall g, In g after -> ~ (seen g i /\ above (tc_det_thr c) (det_of g i) k)) ->
    nth_error (absolute_estimate (s_store (f_post g) i)) k = nth_error (d_absolute_points (det_of f i)) k.
Proof. exact (nofilter_last_seen laws rt c s f0 fs i n dim). Qed.
Print Assumptions C37_nofilter_last_seen.

(* ---- refutations ---- *)
(** C25 is false in general.  Two points in two dimensions; point 1 is never above the threshold.  Two second
    detections that differ only in point 1 give estimates with different first coordinates of point 1, because
    the mask of first detections combines np.tile of the current mask with np.repeat of the old one. *)
Definition ex25 : list (frame nF) := frames (pt_conf nF) (pt_start nF) [pt_at 1 [[0; 0]; [10; 10]]%Q [1; 0]%Q].
Definition ex25_s : st nF := f_post (nth 0 ex25 (pt_noframe nF)).
Definition ex25_go (s : st nF) (d : detection QcNum) : st nF := fst (update (pt_conf nF) (Some [2]) 1%Z None (meanwhile s (upd (s_heap s) 2 d) 0)).
Definition ex25_d (x : Q) : detection QcNum := pt_det [[0; 0]; [x; x]]%Q [1; 0]%Q.
Definition returned {A B} (x : A * result B) : Prop := exists b, snd x = Ret b.
Theorem C25_unseen_points_ignored_refuted :
  video (pt_conf nF) (pt_start nF) [nth 0 ex25 (pt_noframe nF)] /\ tracked ex25_s 1 /\ agree_above (tc_det_thr (pt_conf nF)) (ex25_d 20) (ex25_d 30) /\
  (forall x, x = 20%Q \/ x = 30%Q ->
     returned (update (pt_conf nF) (Some [2]) 1%Z None (meanwhile ex25_s (upd (s_heap ex25_s) 2 (ex25_d x)) 0)) /\ last_det (ex25_go ex25_s (ex25_d x)) 1 = 2) /\
  show (estimate (s_store (ex25_go ex25_s (ex25_d 20)) 1)) = [[0; 0]; [20; 10]]%Q /\
  show (estimate (s_store (ex25_go ex25_s (ex25_d 30)) 1)) = [[0; 0]; [30; 10]]%Q.
Proof.
  split. { refine (video_eq _ _ _ ex25 (list1 ex25 _ _) _); [vm_compute; reflexivity|]. apply frames_video. vm_compute. reflexivity. }
  split; [by_in|]. split.
  { split; [reflexivity|vm_compute; reflexivity|].
    intros [|[|k]] (x & E & H); [reflexivity| |destruct k; discriminate E]. injection E as <-. vm_compute in H. discriminate. }
  split. { intros x [->| ->]; (split; [eexists; vm_compute; reflexivity|vm_compute; reflexivity]). }
  split; vm_compute; reflexivity.
Qed.
Print Assumptions C25_unseen_points_ignored_refuted.

(** C26 is false in general.  Optimized filter, two points in two dimensions; point 1 is detected for the first
    time in a frame in which point 0 is not: only its second coordinate is set to the detected one. *)
Definition ex26 : list (frame kF) := frames (pt_conf kF) (pt_start kF) [pt_at 1 [[0; 0]; [10; 10]]%Q [1; 0]%Q; pt_at 2 [[0; 0]; [20; 20]]%Q [0; 1]%Q].
Theorem C26_first_detection_refuted : exists f0 f, video (pt_conf kF) (pt_start kF) [f0; f] /\
  s_icount (f_pre f0) < 1 <= s_icount (f_post f0) /\ tracked (f_post f) 1 /\ seen f 1 /\ fresh f 1 /\
  ~ detected_before (f_pre f) 1 1 /\ above (tc_det_thr (pt_conf kF)) (s_heap (f_post f) (last_det (f_post f) 1)) 1 /\
  show (d_absolute_points (s_heap (f_post f) (last_det (f_post f) 1))) = [[0; 0]; [20; 20]]%Q /\
  show (absolute_estimate (s_store (f_post f) 1)) = [[0; 0]; [(2620 # 151); 20]]%Q.
Proof.
  exists (nth 0 ex26 (pt_noframe kF)), (nth 1 ex26 (pt_noframe kF)).
  split. { refine (video_eq _ _ _ ex26 (list2 ex26 _ _) _); [vm_compute; reflexivity|]. apply frames_video. vm_compute. reflexivity. }
  split; [vm_compute; split; repeat constructor|]. split; [by_in|]. split; [by_in|]. split; [by_in|].
  split. { assert (E : o_once (s_store (f_pre (nth 1 ex26 (pt_noframe kF))) 1) = [true; false]) by (vm_compute; reflexivity). unfold detected_before. rewrite E. discriminate. }
  split. { assert (E : d_scores (s_heap (f_post (nth 1 ex26 (pt_noframe kF))) (last_det (f_post (nth 1 ex26 (pt_noframe kF))) 1)) = Some [qc 0; qc 1]) by (vm_compute; reflexivity).
    unfold above. rewrite E. exists (qc 1). split; reflexivity. }
  split; vm_compute; reflexivity.
Qed.
Print Assumptions C26_first_detection_refuted.

(* ---- concrete cases ---- *)
(** The law in the video of C26_first_detection_refuted. *)
Example ex26_law : let f0 := nth 0 ex26 (pt_noframe kF) in let f := nth 1 ex26 (pt_noframe kF) in
  let d0 := s_heap (f_post f0) (last_det (f_post f0) 1) in
  rectangular 2 2 (d_absolute_points d0) /\ (forall sc, d_scores d0 = Some sc -> length sc = 2) /\ fresh f 1 /\
  map this (f_x kF (fst (full_replay (tc_det_thr (pt_conf kF)) 2 2 1 d0 [f]))) = [0; 0; 2620 # 151; 20; 0; 0; 0; 0]%Q.
Proof.
  cbv zeta. split; [vm_compute; split; [reflexivity|repeat constructor]|].
  split. { assert (E : d_scores (s_heap (f_post (nth 0 ex26 (pt_noframe kF))) (last_det (f_post (nth 0 ex26 (pt_noframe kF))) 1)) = Some [qc 1; qc 0]) by (vm_compute; reflexivity).
    rewrite E. intros sc [= <-]. reflexivity. }
  split; [by_in|]. vm_compute. reflexivity.
Qed.
Example pt_rnd_ok FO : rnd_ok (tc_rnd (pt_conf FO)).
Proof. intros x. reflexivity. Qed.
Lemma kF_ok : regular kF okf_wf /\ steady kF okf_wf /\ ignores_unmeasured kF okf_wf.
Proof. exact (conj (okf_regular _) (conj (okf_steady QcNum_ring _) (okf_ignores QcNum_ring _))). Qed.

(** C25, optimized filter: both points were detected before, point 1 is not detected in the second frame. *)
Definition ex25p : list (frame kF) := frames (pt_conf kF) (pt_start kF) [pt_at 1 [[0; 0]; [10; 10]]%Q [1; 1]%Q].
Definition ex25p_f : frame kF := nth 0 ex25p (pt_noframe kF).
Definition ex25p_s : st kF := f_post ex25p_f.
Definition ex25p_run (x : Q) : st kF * result (list nat) :=
  update (pt_conf kF) (Some [2]) 1%Z None (meanwhile ex25p_s (upd (s_heap ex25p_s) 2 (pt_det [[4; 0]; [x; x]]%Q [1; 0]%Q)) 0).
Definition ex25p_post (x : Q) : st kF := fst (ex25p_run x).
Definition ex25p_d (x : Q) : detection QcNum := s_heap (ex25p_post x) (last_det (ex25p_post x) 1).
Example ex25_hyps : video (pt_conf kF) (pt_start kF) [ex25p_f] /\
  s_icount (f_pre ex25p_f) < 1 <= s_icount (f_post ex25p_f) /\
  (exists n d, rectangular n d (d_absolute_points (s_heap (f_post ex25p_f) (last_det (f_post ex25p_f) 1)))) /\
  tracked (f_post ex25p_f) 1 /\ s_gcount (f_post ex25p_f) <= 0 /\
  (forall x, x = 20%Q \/ x = 30%Q -> snd (ex25p_run x) = Ret [1] /\ In (last_det (ex25p_post x) 1) [2]) /\
  ~ In (last_det ex25p_s 1) [2] /\
  agree_above (tc_det_thr (pt_conf kF)) (ex25p_d 20) (ex25p_d 30) /\
  rectangular (num_points ex25p_s 1) (dim_points ex25p_s 1) (d_absolute_points (ex25p_d 20)) /\
  (forall k, k < dim_points ex25p_s 1 * num_points ex25p_s 1 -> above (tc_det_thr (pt_conf kF)) (ex25p_d 20) (k mod num_points ex25p_s 1) ->
     detected_before ex25p_s 1 (k / dim_points ex25p_s 1) \/ above (tc_det_thr (pt_conf kF)) (ex25p_d 20) (k / dim_points ex25p_s 1)).
Proof.
  split. { refine (video_eq _ _ _ ex25p (list1 ex25p _ _) _); [vm_compute; reflexivity|]. apply frames_video. vm_compute. reflexivity. }
  split; [vm_compute; split; repeat constructor|].
  split. { exists 2, 2. vm_compute. split; [reflexivity|repeat constructor]. }
  split; [by_in|]. split; [vm_compute; repeat constructor|].
  split. { intros x [->| ->]; (split; [vm_compute; reflexivity|by_in]). }
  split; [by_in|].
  assert (S1 : d_scores (ex25p_d 20) = Some [qc 1; qc 0]) by (vm_compute; reflexivity).
  assert (S2 : d_scores (ex25p_d 30) = Some [qc 1; qc 0]) by (vm_compute; reflexivity).
  split.
  { split; [congruence|vm_compute; reflexivity|].
    intros k. unfold above. rewrite S1. intros (x & E & H). destruct k as [|[|k]]; [vm_compute; reflexivity| |destruct k; discriminate E].
    injection E as <-. vm_compute in H. discriminate. }
  split; [vm_compute; split; [reflexivity|repeat constructor]|].
  intros k Hk _. left. unfold detected_before. assert (O : o_once (s_store ex25p_s 1) = [true; true]) by (vm_compute; reflexivity). rewrite O.
  change (dim_points ex25p_s 1) with 2 in *. change (num_points ex25p_s 1) with 2 in *.
  destruct k as [|[|[|[|k]]]]; try reflexivity. exfalso. lia.
Qed.
Example ex25_outcome : show (estimate (s_store (ex25p_post 20) 1)) = [[444 # 151; 0]; [10; 10]]%Q.
Proof. vm_compute. reflexivity. Qed.

(** C26, optimized filter, dimension 1: point 1 is detected for the first time in the second frame. *)
Definition ex26p : list (frame kF) := frames (pt_conf kF) (pt_start kF) [pt_at 1 [[0]; [10]]%Q [1; 0]%Q; pt_at 2 [[0]; [20]]%Q [0; 1]%Q].
Definition ex26p_f : frame kF := nth 1 ex26p (pt_noframe kF).
Example ex26_hyps : video (pt_conf kF) (pt_start kF) [nth 0 ex26p (pt_noframe kF); ex26p_f] /\
  s_icount (f_pre (nth 0 ex26p (pt_noframe kF))) < 1 <= s_icount (f_post (nth 0 ex26p (pt_noframe kF))) /\
  tracked (f_post ex26p_f) 1 /\ seen ex26p_f 1 /\ fresh ex26p_f 1 /\
  rectangular (num_points (f_pre ex26p_f) 1) (dim_points (f_pre ex26p_f) 1) (d_absolute_points (s_heap (f_post ex26p_f) (last_det (f_post ex26p_f) 1))) /\
  ~ detected_before (f_pre ex26p_f) 1 1 /\
  (forall j, j < dim_points (f_pre ex26p_f) 1 -> above (tc_det_thr (pt_conf kF)) (s_heap (f_post ex26p_f) (last_det (f_post ex26p_f) 1))
     ((1 * dim_points (f_pre ex26p_f) 1 + j) mod num_points (f_pre ex26p_f) 1)).
Proof.
  split. { refine (video_eq _ _ _ ex26p (list2 ex26p _ _) _); [vm_compute; reflexivity|]. apply frames_video. vm_compute. reflexivity. }
  split; [vm_compute; split; repeat constructor|]. split; [by_in|]. split; [by_in|]. split; [by_in|].
  split; [vm_compute; split; [reflexivity|repeat constructor]|].
  split. { assert (E : o_once (s_store (f_pre ex26p_f) 1) = [true; false]) by (vm_compute; reflexivity). unfold detected_before. rewrite E. discriminate. }
  assert (D : dim_points (f_pre ex26p_f) 1 = 1) by (vm_compute; reflexivity). assert (Np : num_points (f_pre ex26p_f) 1 = 2) by (vm_compute; reflexivity).
  rewrite D, Np. intros [|j] Hj; [|lia].
  assert (E : d_scores (s_heap (f_post ex26p_f) (last_det (f_post ex26p_f) 1)) = Some [qc 0; qc 1]) by (vm_compute; reflexivity).
  unfold above. rewrite E. exists (qc 1). split; [reflexivity|vm_compute; reflexivity].
Qed.

(** C35: a moving start is excluded by the hypothesis; here three detections of one place with a pause. *)
Definition ex35 : list (frame kF) := frames (pt_conf kF) (pt_start kF)
  [pt_at 1 [[7; 8]]%Q [1]%Q; pt_nothing; pt_at 2 [[7; 8]]%Q [1]%Q].
Definition ex35_P : points QcNum := map (map qc) [[7; 8]]%Q.
Lemma forall3 {A} (P : A -> Prop) a b c : P a -> P b -> P c -> forall x, In x [a; b; c] -> P x.
Proof. intros Ha Hb Hc x [<-|[<-|[<-|[]]]]; assumption. Qed.
Example ex35_hyps : exists f0 fs, video (pt_conf kF) (pt_start kF) (f0 :: fs) /\ s_icount (f_pre f0) < 1 <= s_icount (f_post f0) /\
  rectangular 1 2 ex35_P /\
  (forall f, In f (f0 :: fs) -> seen f 1 -> d_absolute_points (s_heap (f_post f) (last_det (f_post f) 1)) = ex35_P) /\
  exists f, In f fs /\ tracked (f_post f) 1.
Proof.
  exists (nth 0 ex35 (pt_noframe kF)), [nth 1 ex35 (pt_noframe kF); nth 2 ex35 (pt_noframe kF)].
  split. { refine (video_eq _ _ _ ex35 (list3 ex35 _ _) _); [vm_compute; reflexivity|]. apply frames_video. vm_compute. reflexivity. }
  split; [vm_compute; split; repeat constructor|]. split; [split; [reflexivity|repeat constructor]|].
  split. { refine (forall3 (fun f => seen f 1 -> d_absolute_points (s_heap (f_post f) (last_det (f_post f) 1)) = ex35_P) _ _ _ _ _ _); intros _; vm_compute; reflexivity. }
  exists (nth 2 ex35 (pt_noframe kF)). split; [right; left; reflexivity|by_in].
Qed.

(** C37: point 1 is last above the threshold in the first frame, point 0 in the last one. *)
Definition ex37 : list (frame nF) := frames (pt_conf nF) (pt_start nF)
  [pt_at 1 [[0]; [10]]%Q [1; 1]%Q; pt_at 2 [[1]; [11]]%Q [1; 0]%Q; pt_at 3 [[2]; [12]]%Q [1; 0]%Q].
Example ex37_hyps : exists f0 fs, video (pt_conf nF) (pt_start nF) (f0 :: fs) /\ s_icount (f_pre f0) < 1 <= s_icount (f_post f0) /\
  (forall f, In f (f0 :: fs) -> seen f 1 -> rectangular 2 1 (d_absolute_points (det_of f 1))) /\
  exists g, nth_error (f0 :: fs) 2 = Some g /\ tracked (f_post g) 1 /\
    show (absolute_estimate (s_store (f_post g) 1)) = [[2]; [10]]%Q.
Proof.
  exists (nth 0 ex37 (pt_noframe nF)), [nth 1 ex37 (pt_noframe nF); nth 2 ex37 (pt_noframe nF)].
  split. { refine (video_eq _ _ _ ex37 (list3 ex37 _ _) _); [vm_compute; reflexivity|]. apply frames_video. vm_compute. reflexivity. }
  split; [vm_compute; split; repeat constructor|].
  split. { refine (forall3 (fun f => seen f 1 -> rectangular 2 1 (d_absolute_points (det_of f 1))) _ _ _ _ _ _); intros _; (split; [vm_compute; reflexivity|vm_compute; repeat constructor]). }
  exists (nth 2 ex37 (pt_noframe nF)). split; [reflexivity|]. split; [by_in|vm_compute; reflexivity].
Qed.

(** C51-C56: the exact matching, what objects remember, new objects, the filter as a replay and the
    re-identification step. *)
From Coq Require Import ZArith QArith Qcanon Reals Lra Bool List Arith Lia.
From Verif Require Import Model.Num Model.Base Model.Matching Model.Filter Model.Float32 Model.Tracker Model.KalmanMatrix
  Spec.MatchingSpec Spec.KalmanSpec Spec.ExampleTracker Spec.ExampleVideo Spec.ExamplePoints
  Proofs.NumLaws Proofs.RingNums Proofs.MatchingProofs Proofs.GreedyProofs Proofs.Float32Proofs Proofs.Effect
  Proofs.PhasesProofs Proofs.PastLaw Proofs.ReplayProofs Proofs.FilterTracker Proofs.KalmanTheorems.
From Verif Require Import Spec.CallSpec Spec.PointSpec Spec.PhasesSpec.
Import ListNotations.
Local Open Scope nat_scope.

(** C51: the matching is exactly the greedy one: repeatedly the smallest remaining distance below the
    threshold, the first in row-major order among equal ones. *)
Theorem C51_matching_is_greedy (N : Num) (laws : NumLaws N) rnd n m (thr : dval N) (M : matrix N) dis ois :
  rect n m M -> nan_free M -> (forall x, dis_nan (rnd x) = dis_nan x) ->
  match_dets_and_objs rnd thr M = Some (dis, ois) ->
  greedy_all n m (entry M) thr (combine dis ois).
Proof. exact (fun R F K => match_greedy laws rnd n m thr M dis ois R F (eq_trans (K (dsucc thr)) (dis_nan_succ thr))). Qed.
Print Assumptions C51_matching_is_greedy.

(** There is only one greedy assignment. *)
Theorem C51_greedy_unique (N : Num) n m (d : nat -> nat -> dval N) thr P Q :
  greedy_all n m d thr P -> greedy_all n m d thr Q -> P = Q.
Proof. exact (fun A B => greedy_unique d thr (seq 0 n) (seq 0 m) P A Q B). Qed.
Print Assumptions C51_greedy_unique.

(** C52, C56: one call, step by step: the pairs of both steps are the greedy ones for objects in order of age,
    the objects remember the distances, and the re-identification step is the greedy matching of the initialized
    objects without detection and the retired objects with the initializing objects that got a detection. *)
Theorem C52_distances_remembered (N : Num) (laws : NumLaws N) (FO : filter_ops N) (c : tconf FO) dets p ct (s s' : st FO) out :
  rnd_ok (tc_rnd c) -> tracker_state c s -> update c (Some dets) p ct s = (s', Ret out) ->
  exists ini uni M1 M2 P1 P2,
    two_phases c dets s (snd (begin_update c dets ct s)) s' ini uni M1 M2 P1 P2 /\
    distances_recorded c dets s s' ini uni M1 M2 P1 P2.
Proof. exact (call_distances laws c dets p ct s s' out). Qed.
Print Assumptions C52_distances_remembered.

Theorem C56_reidentification_step (N : Num) (laws : NumLaws N) (FO : filter_ops N) (c : tconf FO) dets p ct (s s' : st FO) out :
  rnd_ok (tc_rnd c) -> tracker_state c s -> update c (Some dets) p ct s = (s', Ret out) ->
  exists ini uni M1 M2 P1 P2 old lost fresh M3 P3,
    two_phases c dets s (snd (begin_update c dets ct s)) s' ini uni M1 M2 P1 P2 /\
    reidentification c s (snd (begin_update c dets ct s)) s' ini uni P1 P2 old lost fresh M3 P3.
Proof. exact (call_reidentification laws c dets p ct s s' out). Qed.
Print Assumptions C56_reidentification_step.

(** C53: which detections past_detections keeps, and the ages they get. *)
Theorem C53_past_detections_law (N : Num) (laws : NumLaws N) (FO : filter_ops N) (c : tconf FO) dets p ct (s s' : st FO) out :
  rnd_ok (tc_rnd c) -> tracker_state c s -> tc_reid_distance c = None ->
  update c (Some dets) p ct s = (s', Ret out) -> NoDup dets ->
  (forall r, ~ In r dets -> det_age s' r = det_age s r) /\
  (forall i, tracked s i -> ~ In (last_det s i) dets -> ~ In (last_det s' i) dets -> past s' i = past s i) /\
  (forall i, tracked s i -> ~ In (last_det s i) dets -> (forall q, In q (past s i) -> ~ In q dets) -> In (last_det s' i) dets ->
     let r := last_det s' i in let now := (o_age (s_store s i) + 1)%Z in
     o_age (s_store s' i) = now /\
     past_updated (tc_past_len c) now (det_age s) (past s i) r (past s' i) /\
     (In r (past s' i) -> det_age s' r = Some now) /\ (~ In r (past s' i) -> det_age s' r = det_age s r)).
Proof. exact (past_law_conf laws c dets p ct s s' out). Qed.
Print Assumptions C53_past_detections_law.

(** C54: the complete initial state of an object. *)
Theorem C54_new_object_state (N : Num) (laws : NumLaws N) (FO : filter_ops N) (c : tconf FO) dets p ct (s s' : st FO) out i :
  starts_at_rest FO -> rnd_ok (tc_rnd c) -> tracker_state c s ->
  update c (Some dets) p ct s = (s', Ret out) -> known s' i -> ~ known s i ->
  tracked s' i /\ In (last_det s' i) dets /\ newborn c p ct s' i.
Proof. exact (newborn_state laws c dets p ct s s' out i). Qed.
Print Assumptions C54_new_object_state.

(** All three filters start in the first detection, at rest. *)
Theorem C54_filters_start_at_rest (N : Num) (pk : okf_params N) (inv : nat -> mat -> mat) (pf : fp_params) :
  starts_at_rest (nofilter_ops N) /\ starts_at_rest (okf_ops pk) /\ starts_at_rest (fp_ops inv pf).
Proof. exact (filters_start_at_rest pk inv pf). Qed.
Print Assumptions C54_filters_start_at_rest.

(** C55: the filter of an object sees exactly one prediction per call and one correction per matched detection,
    with the points above the threshold. *)
Theorem C55_estimate_is_replay (N : Num) (laws : NumLaws N) (FO : filter_ops N) (c : tconf FO) (s : st FO) f0 fs i wf same n dim :
  regular FO wf -> rewritable FO wf same ->
  rnd_ok (tc_rnd c) -> tracker_state c s -> tc_reid_distance c = None -> video c s (f0 :: fs) ->
  s_icount (f_pre f0) < i <= s_icount (f_post f0) ->
  let d0 := s_heap (f_post f0) (last_det (f_post f0) i) in
  rectangular n dim (d_absolute_points d0) -> 0 < n -> 0 < dim -> (forall sc, d_scores d0 = Some sc -> length sc = n) ->
  (forall k, k < n -> above (tc_det_thr c) d0 k) ->
  (forall f, In f fs -> fresh f i) ->
  forall m g, nth_error (f0 :: fs) m = Some g -> tracked (f_post g) i ->
  let x := f_x FO (replay (tc_det_thr c) n dim i (d_absolute_points d0) (firstn m fs)) in
  let o := s_store (f_post g) i in
  rectangular n dim (absolute_estimate o) /\ rectangular n dim (estimate_velocity o) /\
  x = concat (absolute_estimate o) ++ concat (estimate_velocity o).
Proof. exact (estimate_replay laws c s f0 fs i wf same n dim). Qed.
Print Assumptions C55_estimate_is_replay.

Theorem C55_filters (N : Num) (pk : okf_params N) :
  (exists wf same, regular (nofilter_ops N) wf /\ rewritable (nofilter_ops N) wf same) /\
  (exists wf same, regular (okf_ops pk) wf /\ rewritable (okf_ops pk) wf same).
Proof. exact (conj (ex_intro _ nf_wf (ex_intro _ eq (conj nf_regular (nf_rewritable nf_wf))))
  (ex_intro _ okf_wf (ex_intro _ eq (conj (okf_regular pk) (okf_rewritable pk okf_wf))))). Qed.
Print Assumptions C55_filters.
Theorem C55_filters_filterpy inv (p : fp_params) : inverts_diagonal inv -> (0 < fp_R p)%R -> (0 <= fp_Q p)%R -> (0 <= fp_P p)%R ->
  exists wf same, regular (fp_ops inv p) wf /\ rewritable (fp_ops inv p) wf same.
Proof. exact (fun A B C D => ex_intro _ (fp_wf p) (ex_intro _ fp_same (conj (fp_regular inv p A B C D) (fp_rewritable inv p (fp_wf p))))). Qed.
Print Assumptions C55_filters_filterpy.

(* ---- concrete cases ---- *)
(** C51: two equal minima; the one in the first row wins, then the remaining columns. *)
Definition ex51_M : matrix QNum := map (map (fun x : Q => DFin (x : QNum))) [[3; 1]; [1; 2]; [7; 9]]%Q.
Example ex51 : rect 3 2 ex51_M /\ nan_free ex51_M /\
  match_dets_and_objs round32 (DFin (5%Q : QNum)) ex51_M = Some ([0; 1], [1; 0]).
Proof. split; [split; [reflexivity|repeat constructor]|]. split; vm_compute; reflexivity. Qed.

(** C52, C53, C54: object 1 (initialized) near 2, object 2 new at 40. *)
Definition ex52_ins : list (input QNum) := ex_warm ++ [MkInput [(4, ex_det 2); (5, ex_det 40)] [5; 4] 1 None;
  MkInput [(6, ex_det 41); (7, ex_det 80); (8, ex_det 3)] [6; 7; 8] 1 None].
Definition ex52 : list (frame exF) := frames ex_conf ex_start ex52_ins.
Example ex52_video : video ex_conf ex_start ex52 /\ rnd_ok (tc_rnd ex_conf).
Proof. split; [apply frames_video; vm_compute; reflexivity|exact round32_not_nan]. Qed.
Definition dist_show (x : option (dval QNum)) : option Q := match x with Some (DFin q) => Some (Qred q) | _ => None end.
Example ex52_outcome :
  map (fun f => (map dist_show (map (last_distance (f_post f)) (s_tracked (f_post f))), map dist_show (map (current_min_distance (f_post f)) (s_tracked (f_post f))))) (skipn 3 ex52)
  = [([Some 0; None], [Some 0; None]); ([Some 1; Some 1; None], [Some 1; Some 1; None])]%Q.
Proof. vm_compute. reflexivity. Qed.

(** C53: an object that is seen in every frame, past_detections_length 2: room, three shifts, then a detection
    that is not stored. *)
Definition ex53 : list (frame exF) := frames ex_conf ex_start [at_ 1 0; at_ 2 1; at_ 3 2; at_ 4 3; at_ 5 4; at_ 6 5].
Example ex53_video : video ex_conf ex_start ex53 /\ tc_reid_distance ex_conf = None /\ tc_past_len ex_conf = 2.
Proof. split; [apply frames_video; vm_compute; reflexivity|split; reflexivity]. Qed.
Example ex53_outcome :
  map (fun f => (past (f_post f) 1, map (det_age (f_post f)) (past (f_post f) 1), o_age (s_store (f_post f) 1))) ex53
  = [([1], [Some 0%Z], 0%Z); ([1; 2], [Some 0%Z; Some 1%Z], 1%Z); ([2; 3], [Some 1%Z; Some 2%Z], 2%Z);
     ([3; 4], [Some 2%Z; Some 3%Z], 3%Z); ([4; 5], [Some 3%Z; Some 4%Z], 4%Z); ([4; 5], [Some 3%Z; Some 4%Z], 5%Z)].
Proof. vm_compute. reflexivity. Qed.

(** C54: two points of which the second is below the threshold, period 2. *)
Definition ex54_in : input QcNum := MkInput [(1, pt_det [[1; 2]; [3; 4]]%Q [1; 0]%Q)] [1] 2%Z None.
Definition ex54 : list (frame kF) := frames (pt_conf kF) (pt_start kF) [ex54_in].
Definition ex54_f : frame kF := nth 0 ex54 (pt_noframe kF).
Example ex54_hyps : video (pt_conf kF) (pt_start kF) ex54 /\ known (f_post ex54_f) 1 /\ ~ known (f_pre ex54_f) 1.
Proof.
  split; [apply frames_video; vm_compute; reflexivity|]. split; [vm_compute; split; repeat constructor|].
  intros [_ H]. vm_compute in H. lia.
Qed.
Example ex54_outcome : let s := f_post ex54_f in
  (hit_counter s 1, o_initializing (s_store s 1), past s 1, o_point_hits (s_store s 1), show (estimate (s_store s 1)), show (estimate_velocity (s_store s 1)))
  = (2%Z, false, [1], [1; 0]%Z, [[1; 2]; [3; 4]]%Q, [[0; 0]; [0; 0]]%Q).
Proof. vm_compute. reflexivity. Qed.

(** C55, optimized filter: three frames, the object is seen in the first and in the last one, where point 1 is
    below the threshold. *)
Definition ex55 : list (frame kF) := frames (pt_conf kF) (pt_start kF)
  [pt_at 1 [[0]; [10]]%Q [1; 1]%Q; pt_nothing; pt_at 2 [[3]; [12]]%Q [1; 0]%Q].
Example ex55_hyps : exists f0 f1 f2, video (pt_conf kF) (pt_start kF) [f0; f1; f2] /\
  s_icount (f_pre f0) < 1 <= s_icount (f_post f0) /\
  rectangular 2 1 (d_absolute_points (s_heap (f_post f0) (last_det (f_post f0) 1))) /\
  (forall k, k < 2 -> above (tc_det_thr (pt_conf kF)) (s_heap (f_post f0) (last_det (f_post f0) 1)) k) /\
  (forall f, In f [f1; f2] -> fresh f 1) /\ tracked (f_post f2) 1 /\ seen f2 1 /\
  map this (f_x kF (replay (tc_det_thr (pt_conf kF)) 2 1 1 (d_absolute_points (s_heap (f_post f0) (last_det (f_post f0) 1))) [f1; f2]))
    = [333 # 151; 10; 30 # 151; 0]%Q /\
  show (absolute_estimate (s_store (f_post f2) 1)) = [[333 # 151]; [10]]%Q /\
  show (estimate_velocity (s_store (f_post f2) 1)) = [[30 # 151]; [0]]%Q.
Proof.
  exists (nth 0 ex55 (pt_noframe kF)), (nth 1 ex55 (pt_noframe kF)), (nth 2 ex55 (pt_noframe kF)).
  split. { refine (video_eq _ _ _ ex55 (list3 ex55 _ _) _); [vm_compute; reflexivity|]. apply frames_video. vm_compute. reflexivity. }
  split; [vm_compute; split; repeat constructor|]. split; [vm_compute; split; [reflexivity|repeat constructor]|].
  split. { intros k Hk. unfold above.
    assert (E : d_scores (s_heap (f_post (nth 0 ex55 (pt_noframe kF))) (last_det (f_post (nth 0 ex55 (pt_noframe kF))) 1)) = Some [qc 1; qc 1]) by (vm_compute; reflexivity).
    rewrite E. destruct k as [|[|k]]; [exists (qc 1); split; reflexivity|exists (qc 1); split; reflexivity|lia]. }
  split. { intros f [<-|[<-|[]]]; by_in. }
  split; [by_in|]. split; [by_in|]. split; [|split]; vm_compute; reflexivity.
Qed.

(** C56: object 1 is retired in the first frame listed; a new object appears far away, gets a second detection
    and is merged into object 1. *)
Definition ex56 : list (frame exF) := frames (ex_conf_reid 2) ex_start (ex_warm ++ [nothing; nothing; at_ 4 30; at_ 5 31; at_ 6 32]).
Example ex56_video : video (ex_conf_reid 2) ex_start ex56 /\ rnd_ok (tc_rnd (ex_conf_reid 2)).
Proof. split; [apply frames_video; vm_compute; reflexivity|exact round32_not_nan]. Qed.
Example ex56_outcome : map (fun f => (s_tracked (f_pre f), s_tracked (f_post f), last_det (f_post f) 1, dist_show (last_distance (f_post f) 1))) (skipn 5 ex56) =
  [([1], [1; 2], 3, Some 1%Q); ([1; 2], [1], 5, Some 1%Q); ([1], [1], 6, Some 1%Q)].
Proof. vm_compute. reflexivity. Qed.

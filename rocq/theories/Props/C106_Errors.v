(** C106: small errors in filters and distances change nothing unless a distance is close to the threshold or to another distance. *)
From Coq Require Import ZArith QArith Reals List Bool Arith Lia.
From Verif Require Import Model.Num Model.Base Model.Matching Model.Filter Model.Float32 Model.Tracker Spec.MatchingSpec Spec.CallSpec Spec.ExampleVideo Spec.ExampleTracker
  Spec.LabelSpec Spec.UnitSpec Spec.OrderSpec Spec.NearSpec Spec.NearExample Proofs.NumLaws Proofs.Float32Proofs Proofs.NearProofs Proofs.NearExamples.
Import ListNotations.
Local Open Scope nat_scope.

(** The first program tracks a video.  The second one has another filter, whose states stay related to those of the
    first one ([R]), and other distances, which are stored as numbers within [eps] of those of the first one.  If in no
    table of distances of the first program a distance is within [eps] of the threshold, or two distances below the
    threshold are within 2 [eps] of each other, the second program also tracks the video and every call gives the same
    result: the same objects, ids and counts, matched to the same detections. *)
Theorem C106_errors {FO FO' : filter_ops RNum} (eps : R) (R : fstate FO -> fstate FO' -> Prop) (c : tconf FO) (c' : tconf FO') ins h g dummy dummy' fa :
  filters_follow R -> nearly_alike (within (eps : RNum)) R c c' ->
  play c (new_tracker h g dummy) ins = Some fa -> (forall f, In f fa -> each_table (clear (eps : RNum)) c f) ->
  exists fb, play c' (new_tracker h g dummy') ins = Some fb /\ Forall2 (same_frame (within (eps : RNum)) R) fa fb.
Proof. exact (tracking_errors_R eps R c c' ins h g dummy dummy' fa). Qed.
Print Assumptions C106_errors.
(** The same with rational numbers. *)
Theorem C106_errors_rational {FO FO' : filter_ops QNum} (eps : Q) (R : fstate FO -> fstate FO' -> Prop) (c : tconf FO) (c' : tconf FO') ins h g dummy dummy' fa :
  filters_follow R -> nearly_alike (within (eps : QNum)) R c c' ->
  play c (new_tracker h g dummy) ins = Some fa -> (forall f, In f fa -> each_table (clear (eps : QNum)) c f) ->
  exists fb, play c' (new_tracker h g dummy') ins = Some fb /\ Forall2 (same_frame (within (eps : QNum)) R) fa fb.
Proof. exact (tracking_errors_Q eps R c c' ins h g dummy dummy' fa). Qed.
Print Assumptions C106_errors_rational.

(** For any other notion of numbers that are near each other: it is enough that near tables decide alike. *)
Theorem C106_decisions {N : Num} (laws : NumLaws N) {FO FO' : filter_ops N} (near : dval N -> dval N -> Prop) (R : fstate FO -> fstate FO' -> Prop)
  (c : tconf FO) (c' : tconf FO') ins h g dummy dummy' fa :
  near DPInf DPInf -> (forall x y, near x y -> dis_nan x = false -> dis_nan y = false) -> filters_follow R -> nearly_alike near R c c' ->
  play c (new_tracker h g dummy) ins = Some fa -> (forall f, In f fa -> each_table (decisive near) c f) ->
  exists fb, play c' (new_tracker h g dummy') ins = Some fb /\ Forall2 (same_frame near R) fa fb.
Proof. exact (tracking_decisive laws near R c c' ins h g dummy dummy' fa). Qed.
Print Assumptions C106_decisions.

(** Without errors in the distances nothing needs to be clear: another implementation of a filter that leads to the same
    distances, ties included, gives the same tracking. *)
Theorem C106_same_distances {N : Num} (laws : NumLaws N) {FO FO' : filter_ops N} (R : fstate FO -> fstate FO' -> Prop)
  (c : tconf FO) (c' : tconf FO') ins h g dummy dummy' fa :
  filters_follow R -> nearly_alike eq R c c' -> play c (new_tracker h g dummy) ins = Some fa ->
  exists fb, play c' (new_tracker h g dummy') ins = Some fb /\ Forall2 (same_frame eq R) fa fb.
Proof. exact (tracking_equal laws R c c' ins h g dummy dummy' fa). Qed.
Print Assumptions C106_same_distances.

(** Distances kept in float32, as norfair does, and distances kept exactly: the same tracking, as long as rounding moves
    no distance across the threshold and makes no two distances below the threshold equal. *)
Theorem C106_float32 {FO : filter_ops QNum} (c : tconf FO) f ins h g dummy dummy' fa :
  tc_rnd c = (fun d => d) -> tc_distance c = ScalarDistance f -> tc_reid_distance c = None -> same_values (fun x y => y = round32 x) f ->
  can_stop (fun d => d) (tc_threshold c) -> can_stop round32 (tc_threshold c) ->
  play c (new_tracker h g dummy) ins = Some fa -> (forall fr, In fr fa -> each_table (order_kept round32) c fr) ->
  exists fb, play (with_rnd c round32) (new_tracker h g dummy') ins = Some fb /\ Forall2 (same_frame (fun x y => y = round32 x) eq) fa fb.
Proof.
  exact (fun A B C D => tracking_stored QNum_laws round32 c f ins h g dummy dummy' fa A B C D eq_refl (fun x H => eq_trans (round32_not_nan x) H)).
Qed.
Print Assumptions C106_float32.

(** Two things at 0 and 10, then one detection in the middle: an error of a millionth decides which of the two objects
    gets it. *)
Definition ex106_tie : list (input QNum) :=
  [MkInput [(1, ex_det 0); (2, ex_det 10)] [1; 2] 1 None; MkInput [(3, ex_det 0); (4, ex_det 10)] [3; 4] 1 None; MkInput [(5, ex_det 5)] [5] 1 None].
Theorem C106_tie_refuted : exists (eps : Q) (c c' : tconf exF) ins h g dummy fa fb,
  (0 < eps)%Q /\ nearly_alike (within (eps : QNum)) eq c c' /\
  play c (new_tracker h g dummy) ins = Some fa /\ play c' (new_tracker h g dummy) ins = Some fb /\ ~ Forall2 (same_frame (within (eps : QNum)) eq) fa fb.
Proof.
  set (c := line_tracker (FO := exF) line_distance). set (c' := line_tracker (FO := exF) (line_distance_off (1 # 1000000)%Q)).
  exists (1 # 1000000)%Q, c, c', ex106_tie, (fun _ => ex_det 0), 0, ex_dummy, (frames c ex_start ex106_tie), (frames c' ex_start ex106_tie).
  split; [reflexivity|]. split; [apply off_alike; discriminate|]. split; [apply plays; vm_compute; reflexivity|]. split; [apply plays; vm_compute; reflexivity|].
  apply different_pairs. vm_compute. reflexivity.
Qed.
Print Assumptions C106_tie_refuted.

(* ---- a video with a clear outcome ---- *)
Definition ex106 : list (input QNum) :=
  [MkInput [(1, ex_det 0); (2, ex_det 10)] [1; 2] 1 None; MkInput [(3, ex_det 1); (4, ex_det 8)] [4; 3] 1 None; MkInput [(5, ex_det 4)] [5] 1 None; nothing;
   MkInput [(6, ex_det 5); (7, ex_det 30)] [7; 6] 1 None; MkInput [(8, ex_det 31); (9, ex_det 7)] [8; 9] 1 None].
Definition ex106_frames : list (CallSpec.frame exF) := frames (line_tracker line_distance) ex_start ex106.
Example ex106_plays : play (line_tracker line_distance) ex_start ex106 = Some ex106_frames.
Proof. apply plays. vm_compute. reflexivity. Qed.
(** One table has a distance of 4 besides one of 3 (threshold 6): errors of 1/10 are harmless. *)
Example ex106_clear : forall f, In f ex106_frames -> each_table (clear (((1 # 20) + (1 # 20))%Q : QNum)) (line_tracker line_distance) f.
Proof.
  assert (H : forallb (fun f => forallb (fun x => clearb (((1 # 20) + (1 # 20))%Q : QNum) (fst x) (snd x))
      (tables (line_tracker line_distance) (f_dets f) (f_period f) (f_ct f) (f_pre f))) ex106_frames = true) by (vm_compute; reflexivity).
  rewrite forallb_forall in H. intros f Hf thr M HM. specialize (H f Hf). rewrite forallb_forall in H. apply clearb_ok, (H (thr, M) HM).
Qed.
(** A filter that gets all positions wrong by 1/20 gives the same tracking: object 1 gets the detection at 4, and the others
    too are matched as before. *)
Example ex106_biased dummy' : exists fb, play (line_tracker (FO := biased (1 # 20)) line_distance) (new_tracker (fun _ => ex_det 0) 0 dummy') ex106 = Some fb /\
  Forall2 (same_frame (FO := exF) (FO' := biased (1 # 20)) (within (((1 # 20) + (1 # 20))%Q : QNum)) (close_filters (1 # 20))) ex106_frames fb.
Proof.
  refine (C106_errors_rational (FO := exF) (FO' := biased (1 # 20)) ((1 # 20) + (1 # 20)) (close_filters (1 # 20)) (line_tracker line_distance) (line_tracker line_distance) ex106
    (fun _ => ex_det 0) 0 ex_dummy dummy' ex106_frames (biased_follows (1 # 20) ltac:(discriminate)) (biased_alike (1 # 20) ltac:(discriminate)) ex106_plays _).
  apply ex106_clear.
Qed.
Example ex106_pairs : map (fun f => map (fun i => (i, last_det (f_post f) i)) (f_out f)) ex106_frames =
  [[(1, 1); (2, 2)]; [(1, 3); (2, 4)]; [(1, 5); (2, 4)]; [(1, 5); (2, 4)]; [(1, 6); (3, 7)]; [(1, 9); (3, 8)]].
Proof. vm_compute. reflexivity. Qed.
(** Storing the distances in float32 is harmless here too. *)
Example ex106_float32 dummy' : exists fb, play (with_rnd (line_tracker (FO := exF) line_distance) round32) (new_tracker (fun _ => ex_det 0) 0 dummy') ex106 = Some fb /\
  Forall2 (same_frame (fun x y => y = round32 x) eq) ex106_frames fb.
Proof.
  refine (C106_float32 (line_tracker line_distance) line_distance ex106 (fun _ => ex_det 0) 0 ex_dummy dummy' ex106_frames eq_refl eq_refl eq_refl
    (line_same_values _) (conj eq_refl eq_refl) (conj eq_refl eq_refl) ex106_plays _).
  assert (H : forallb (fun f => forallb (fun x => order_keptb round32 (fst x) (snd x))
        (tables (line_tracker line_distance) (f_dets f) (f_period f) (f_ct f) (f_pre f))) ex106_frames = true) by (vm_compute; reflexivity).
  rewrite forallb_forall in H. intros f Hf thr M HM. specialize (H f Hf). rewrite forallb_forall in H. apply order_keptb_ok, (H (thr, M) HM).
Qed.

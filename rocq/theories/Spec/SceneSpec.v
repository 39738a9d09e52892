(** Vocabulary for C88: things that move steadily and are detected in every call. *)
From Coq Require Import ZArith Reals List Arith Permutation.
From Verif Require Import Model.Num Model.Base Model.Filter Model.Distances Model.Tracker Spec.ExampleVideo Spec.ProgressSpec Spec.BuiltinSpec Spec.FollowSpec Spec.CallSpec Spec.PointSpec.
Import ListNotations.
Local Open Scope R_scope.

(** The points [x] after [k] calls, if they move by [v] per call. *)
Definition position (x v : points RNum) (k : nat) : points RNum :=
  map (fun r => map (fun s => fst s + INR k * snd s) (combine (fst r) (snd r))) (combine x v).

Section S.
Variables n dim things : nat.           (* number of points of a thing, their dimension, number of things *)
Variables x v : nat -> points RNum.     (* the points of each thing in the first call, and its motion per call *)
Variable lab : nat -> label.            (* its label *)
Variable ref : nat -> nat -> nat.       (* [ref k a] is the detection of thing [a] in call [k] *)
Notation pos a k := (position (x a) (v a) k).

(** Every call gets, in any order, one new detection of each thing, with all points above the threshold; the period is 1
    and the camera rests. *)
Record steady_scene (thr : R) (ins : list (input RNum)) : Prop := {
  ss_shape : forall a, (a < things)%nat -> rectangular n dim (x a) /\ rectangular n dim (v a);
  ss_refs : forall k k' a a', (a < things)%nat -> (a' < things)%nat -> ref k a = ref k' a' -> k = k' /\ a = a';
  ss_call : forall k y, nth_error ins k = Some y -> in_period y = 1%Z /\ in_ct y = None /\
     Permutation (in_dets y) (map (ref k) (seq 0 things)) /\ Permutation (map fst (in_new y)) (map (ref k) (seq 0 things));
  ss_detection : forall k y a d, nth_error ins k = Some y -> (a < things)%nat -> In (ref k a, d) (in_new y) ->
     d_points d = pos a k /\ d_absolute_points d = pos a k /\ d_label d = lab a /\
     (forall sc, d_scores d = Some sc -> length sc = n) /\ forall j, (j < n)%nat -> above (thr : RNum) d j
}.

(** Between two calls a thing moves by less than [threshold] / [K], and in each of the [calls] calls things with the same
    label are more than [threshold] apart, by [K] times the way they move between two calls. *)
Record told_apart (dist : points RNum -> points RNum -> result (dval RNum)) (K threshold : R) (calls : nat) : Prop := {
  ta_slow : forall a, (a < things)%nat -> exists s : R, dist (pos a 1) (pos a 0) = Ret (DFin (s : RNum)) /\ K * s < threshold;
  ta_apart : forall a b k, (a < things)%nat -> (b < things)%nat -> a <> b -> lab a = lab b -> (k < calls)%nat ->
     exists d s : R, dist (pos a k) (pos b k) = Ret (DFin (d : RNum)) /\ dist (pos b 1) (pos b 0) = Ret (DFin (s : RNum)) /\ threshold + K * s <= d
}.

(** The first call makes one object per thing and no other object is ever made or dropped; each object is matched, in every
    call, with the detection of its thing; all are returned from call [delay] on (the first call is call 0). *)
Record all_followed {FO : filter_ops RNum} (delay : Z) (thing_of : nat -> nat) (fs : list (frame FO)) : Prop := {
  af_things : forall a, (a < things)%nat <-> exists i, (1 <= i <= things)%nat /\ thing_of i = a;
  af_objects : forall k f, nth_error fs k = Some f -> s_tracked (f_post f) = seq 1 things /\ s_icount (f_post f) = things;
  af_matched : forall k f i, nth_error fs k = Some f -> (1 <= i <= things)%nat -> last_det (f_post f) i = ref k (thing_of i);
  af_returned : forall k f, nth_error fs k = Some f -> f_out f = if (Z.of_nat k <? delay)%Z then [] else seq 1 things
}.
End S.

(** A tracker with one of the distances on point arrays, exact arithmetic and no re-identification. *)
Definition point_distances : list (points RNum -> points RNum -> result (dval RNum)) :=
  [frobenius_arrays; mean_euclidean_arrays; mean_manhattan_arrays].
Record scene_tracker {FO : filter_ops RNum} (dist : points RNum -> points RNum -> result (dval RNum)) (threshold : R) (c : tconf FO) : Prop := {
  sc_distance : tc_distance c = ScalarDistance (on_points dist);
  sc_threshold : tc_threshold c = DFin (threshold : RNum);
  sc_exact : forall d, tc_rnd c d = d;
  sc_no_reid : tc_reid_distance c = None;
  sc_delay : (0 <= tc_delay c < tc_hit_counter_max c)%Z
}.

(** A new tracker gets the calls of a steady scene whose things are told apart: no call raises, and all things are
    followed. *)
Definition follows_scenes (FO : filter_ops RNum) (K : R) : Prop :=
  forall n dim things x v lab ref dist threshold (c : tconf FO) ins heap g dummy, (0 < n)%nat -> (0 < dim)%nat ->
  In dist point_distances -> scene_tracker dist threshold c -> steady_scene n dim things x v lab ref (tc_det_thr c) ins ->
  told_apart things x v lab dist K threshold (length ins) ->
  exists fs thing_of, play c (new_tracker heap g dummy) ins = Some fs /\ length fs = length ins /\
    all_followed things ref (tc_delay c) thing_of fs.

(** If all things of a scene are followed, then each coordinate of each estimate is at all times at most sqrt C times its
    speed away from where the thing is. *)
Definition scene_estimates (FO : filter_ops RNum) (C : R) : Prop :=
  forall n dim things x v lab ref dist threshold (c : tconf FO) ins heap g dummy fs thing_of, (0 < n)%nat -> (0 < dim)%nat ->
  scene_tracker dist threshold c -> steady_scene n dim things x v lab ref (tc_det_thr c) ins ->
  play c (new_tracker heap g dummy) ins = Some fs -> all_followed things ref (tc_delay c) thing_of fs ->
  forall k f i a b, nth_error fs k = Some f -> (1 <= i <= things)%nat -> (a < n)%nat -> (b < dim)%nat ->
  exists y, coordinate (estimate (s_store (f_post f) i)) a b = Some y /\
    let e := y - entry (position (x (thing_of i)) (v (thing_of i)) k) a b in e * e <= C * (entry (v (thing_of i)) a b * entry (v (thing_of i)) a b).

(** After enough calls, their number depending only on the motions, all estimates and velocities are as exact as desired. *)
Definition scene_learned (FO : filter_ops RNum) : Prop :=
  forall n dim things v eps, 0 < eps -> exists m0, forall x lab ref dist threshold (c : tconf FO) ins heap g dummy fs thing_of, (0 < n)%nat -> (0 < dim)%nat ->
  scene_tracker dist threshold c -> steady_scene n dim things x v lab ref (tc_det_thr c) ins ->
  play c (new_tracker heap g dummy) ins = Some fs -> all_followed things ref (tc_delay c) thing_of fs ->
  forall k f i a b, (m0 <= k)%nat -> nth_error fs k = Some f -> (1 <= i <= things)%nat -> (a < n)%nat -> (b < dim)%nat ->
  exists y w, coordinate (estimate (s_store (f_post f) i)) a b = Some y /\ coordinate (estimate_velocity (s_store (f_post f) i)) a b = Some w /\
    Rabs (y - entry (position (x (thing_of i)) (v (thing_of i)) k) a b) <= eps /\ Rabs (w - entry (v (thing_of i)) a b) <= eps.

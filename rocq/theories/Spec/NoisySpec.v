(** Vocabulary for C91: things that change their speed and are detected inexactly. *)
From Coq Require Import ZArith Reals Bool List Arith Permutation.
From Verif Require Import Model.Num Model.Base Model.Filter Model.Tracker Spec.KalmanSpec Spec.BuiltinSpec Spec.FollowSpec Spec.ExampleVideo Spec.ProgressSpec Spec.SceneSpec Spec.CallSpec Spec.PointSpec.
Import ListNotations.
Local Open Scope R_scope.

(** A coordinate is at [truth k] in call [k]. It moves by at most [v] in the first call, and its motion per call changes
    by at most [acc] from one call to the next. *)
Definition wanders (v acc : R) (truth : nat -> R) : Prop :=
  Rabs (truth 1%nat - truth 0%nat) <= v /\
  forall k, Rabs ((truth (S (S k)) - truth (S k)) - (truth (S k) - truth k)) <= acc.
(** It moves by at most [v] in every call. *)
Definition slow (v : R) (truth : nat -> R) : Prop := forall k, Rabs (truth (S k) - truth k) <= v.

(** Coordinate [k] is measured every time, with an error of at most [eps]; nothing is said about the others. *)
Definition measured_near (eps : R) (truth : nat -> R) (k : nat) (z0 : points RNum) (ms : list measurement) : Prop :=
  Forall (fits_dim (length (flatten z0))) ms /\
  (exists z, nth_error (flatten z0) k = Some z /\ Rabs (z - truth 0%nat) <= eps) /\
  forall j m, nth_error ms j = Some m -> nth_error (me_mask m) k = Some true /\
    exists z, nth_error (me_z m) k = Some z /\ Rabs (z - truth (S j)) <= eps.

(** After [j] measurements the filter's position, velocity and prediction for the next call are off by at most [bound j]. *)
Definition keeps_near (FO : filter_ops RNum) (moves : (nat -> R) -> Prop) (eps : R) (bound : nat -> R) : Prop :=
  forall truth z0 ms k, moves truth -> measured_near eps truth k z0 ms ->
  let j := length ms in
  exists y w next, filter_at FO z0 (filter_run FO z0 ms) k y w /\
    nth_error (f_x FO (f_predict FO (filter_run FO z0 ms))) k = Some next /\
    Rabs (y - truth j) <= bound j /\ Rabs (w - (truth (S j) - truth j)) <= bound j /\ Rabs (next - truth (S j)) <= bound j.

(** The bound for a Kalman filter with process noise [qp] (position) and [qv] (velocity), measurement noise [r] and initial
    covariance [[a0 b0] [b0 d0]]: the influence of the first detection fades like [fading]^j, the rest does not depend on it. *)
Definition uncertainty (qp qv r a0 d0 : R) : R := Rmax (a0 + d0) (r + Rmax (qv + 2 * (2 * r + qp)) (d0 + qv)).
Definition fading (qp qv r a0 d0 : R) : R := sqrt (1 / (1 + Rmin qp qv / (3 * uncertainty qp qv r a0 d0))).
Definition noisy_bound (qp qv r a0 b0 d0 v acc eps : R) (j : nat) : R :=
  let f := fading qp qv r a0 d0 in let D := a0 * d0 - b0 * b0 in
  sqrt (2 * uncertainty qp qv r a0 d0) * (f ^ j * (eps * sqrt (d0 / D) + v * sqrt (a0 / D)) + (acc / sqrt qv + eps / sqrt r) / (1 - f)).

Section S.
Variables n dim things : nat.                    (* number of points of a thing, their dimension, number of things *)
Variable truth : nat -> nat -> nat -> nat -> R.  (* [truth a i j k]: coordinate [j] of point [i] of thing [a] in call [k] *)
Variable shown : nat -> nat -> points RNum.      (* [shown a k]: the points detected for thing [a] in call [k] *)
Variable lab : nat -> label.                     (* its label *)
Variable ref : nat -> nat -> nat.                (* [ref k a] is the detection of thing [a] in call [k] *)

(** Every call gets, in any order, one new detection of each thing, with all points above the threshold and all
    coordinates off by at most [eps]; the period is 1 and the camera rests. *)
Record noisy_scene (moves : (nat -> R) -> Prop) (eps thr : R) (ins : list (input RNum)) : Prop := {
  ns_shape : forall a k, (a < things)%nat -> rectangular n dim (shown a k);
  ns_moves : forall a i j, (a < things)%nat -> (i < n)%nat -> (j < dim)%nat -> moves (truth a i j);
  ns_near : forall a i j k, (a < things)%nat -> (i < n)%nat -> (j < dim)%nat -> Rabs (entry (shown a k) i j - truth a i j k) <= eps;
  ns_refs : forall k k' a a', (a < things)%nat -> (a' < things)%nat -> ref k a = ref k' a' -> k = k' /\ a = a';
  ns_call : forall k y, nth_error ins k = Some y -> in_period y = 1%Z /\ in_ct y = None /\
     Permutation (in_dets y) (map (ref k) (seq 0 things)) /\ Permutation (map fst (in_new y)) (map (ref k) (seq 0 things));
  ns_detection : forall k y a d, nth_error ins k = Some y -> (a < things)%nat -> In (ref k a, d) (in_new y) ->
     d_points d = shown a k /\ d_absolute_points d = shown a k /\ d_label d = lab a /\
     (forall sc, d_scores d = Some sc -> length sc = n) /\ forall j, (j < n)%nat -> above (thr : RNum) d j
}.

(** The array with [reach] in all places. *)
Definition full (reach : R) : points RNum := repeat (repeat (reach : RNum) dim) n.
(** [s], the distance between arrays that differ by [reach] in all places, is below [threshold], and in each of the
    [calls] calls the detections of things with the same label are at least [threshold] + [s] apart. *)
Definition kept_apart (dist : points RNum -> points RNum -> result (dval RNum)) (reach threshold : R) (calls : nat) : Prop :=
  exists s : R, dist (full reach) (full 0) = Ret (DFin (s : RNum)) /\ s < threshold /\
  forall a b k, (a < things)%nat -> (b < things)%nat -> a <> b -> lab a = lab b -> (k < calls)%nat ->
    exists d : R, dist (shown a k) (shown b k) = Ret (DFin (d : RNum)) /\ threshold + s <= d.
End S.

(** A new tracker gets the calls of such a scene: no call raises, all things are followed, and each coordinate of each
    estimate, and of each velocity, is off by at most [bound k] in call [k]. *)
Definition follows_noisy_scenes (FO : filter_ops RNum) (moves : (nat -> R) -> Prop) (eps reach : R) (bound : nat -> R) : Prop :=
  forall n dim things truth shown lab ref dist threshold (c : tconf FO) ins heap g dummy, (0 < n)%nat -> (0 < dim)%nat ->
  In dist point_distances -> scene_tracker dist threshold c ->
  noisy_scene n dim things truth shown lab ref moves eps (tc_det_thr c) ins ->
  kept_apart n dim things shown lab dist reach threshold (length ins) ->
  exists fs thing_of, play c (new_tracker heap g dummy) ins = Some fs /\ length fs = length ins /\
    all_followed things ref (tc_delay c) thing_of fs /\
    forall k f i a b, nth_error fs k = Some f -> (1 <= i <= things)%nat -> (a < n)%nat -> (b < dim)%nat ->
    let t := truth (thing_of i) a b in
    exists y w, coordinate (estimate (s_store (f_post f) i)) a b = Some y /\ coordinate (estimate_velocity (s_store (f_post f) i)) a b = Some w /\
      Rabs (y - t k) <= bound k /\ Rabs (w - (t (S k) - t k)) <= bound k.

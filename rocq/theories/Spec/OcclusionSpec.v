(** Vocabulary for C97: things that move steadily, appear and leave, and are not detected in every call. *)
From Coq Require Import ZArith Reals Bool List Arith Permutation.
From Verif Require Import Model.Num Model.Base Model.Filter Model.Distances Model.Tracker Spec.ExampleVideo Spec.ProgressSpec Spec.BuiltinSpec Spec.FollowSpec Spec.CallSpec Spec.PointSpec Spec.SceneSpec.
Import ListNotations.
Local Open Scope R_scope.

Section S.
Variables n dim things : nat.           (* number of points of a thing, their dimension, number of things *)
Variables x v : nat -> points RNum.     (* the points of each thing in the first call, and its motion per call *)
Variable lab : nat -> label.            (* its label *)
Variable ref : nat -> nat -> nat.       (* [ref k a] is the detection of thing [a] in call [k] *)
Variable vis : nat -> nat -> bool.      (* [vis k a]: thing [a] is detected in call [k] *)
Notation pos a k := (position (x a) (v a) k).

(** The credit of a thing after call [k]: none before it is detected; 1 with the first detection; then one more for every
    call with a detection, up to [cap], and one less for every call without. *)
Fixpoint credit (cap : Z) (a k : nat) : option Z :=
  match k with
  | O => if vis 0 a then Some 1%Z else None
  | S k' => match credit cap a k' with
            | None => if vis k a then Some 1%Z else None
            | Some h => Some (if vis k a then Z.min (h + 1) cap else h - 1)%Z
            end
  end.

(** In every call the things visible in it are detected, in any order, each with a new detection with all points above
    the threshold; the period is 1 and the camera rests. *)
Record scene_with_gaps (thr : R) (ins : list (input RNum)) : Prop := {
  og_shape : forall a, (a < things)%nat -> rectangular n dim (x a) /\ rectangular n dim (v a);
  og_refs : forall k k' a a', (a < things)%nat -> (a' < things)%nat -> ref k a = ref k' a' -> k = k' /\ a = a';
  og_call : forall k y, nth_error ins k = Some y -> in_period y = 1%Z /\ in_ct y = None /\
     Permutation (in_dets y) (map (ref k) (filter (vis k) (seq 0 things))) /\
     Permutation (map fst (in_new y)) (map (ref k) (filter (vis k) (seq 0 things)));
  og_detection : forall k y a d, nth_error ins k = Some y -> (a < things)%nat -> In (ref k a, d) (in_new y) ->
     d_points d = pos a k /\ d_absolute_points d = pos a k /\ d_label d = lab a /\
     (forall sc, d_scores d = Some sc -> length sc = n) /\ forall j, (j < n)%nat -> above (thr : RNum) d j
}.

(** A thing is not detected again once its credit has become negative, nor after more than [G] calls without a
    detection.  (The second condition says nothing if [cap] is at most [G]: then it follows from the first.) *)
Record no_return (cap : Z) (G calls : nat) : Prop := {
  nt_credit : forall a k h, (a < things)%nat -> (S k < calls)%nat -> credit cap a k = Some h -> vis (S k) a = true -> (0 <= h)%Z;
  nt_gap : (Z.of_nat G < cap)%Z -> forall a k l, (a < things)%nat -> (k + S l < calls)%nat -> vis k a = true -> vis (k + S l) a = true ->
     (forall j, (k < j < k + S l)%nat -> vis j a = false) -> (l <= G)%nat
}.

(** Between two calls a thing moves by less than [threshold] / [K]; in each call, a thing that is detected and another
    with the same label that still has credit are more than [threshold] apart, by [K] times the way the other moves
    between two calls. *)
Record apart_with_gaps (dist : points RNum -> points RNum -> result (dval RNum)) (cap : Z) (K threshold : R) (calls : nat) : Prop := {
  ag_slow : forall a, (a < things)%nat -> exists s : R, dist (pos a 1) (pos a 0) = Ret (DFin (s : RNum)) /\ K * s < threshold;
  ag_apart : forall a b k h, (a < things)%nat -> (b < things)%nat -> a <> b -> lab a = lab b -> (S k < calls)%nat ->
     vis (S k) a = true -> credit cap b k = Some h -> (0 <= h)%Z ->
     exists d s : R, dist (pos a (S k)) (pos b (S k)) = Ret (DFin (d : RNum)) /\ dist (pos b 1) (pos b 0) = Ret (DFin (s : RNum)) /\ threshold + K * s <= d
}.

(** Every thing that has been detected has one object [object_of], and there are no others; the object is matched, whenever
    its thing is detected, with this detection, and never with another; its hit counter is the credit of the thing; it is
    kept while the credit is at least -1, and returned while the credit is not negative, once it has been above [delay].
    In a call without a detection of the thing its estimate moves on and stays within [K] times the motion per call of
    the points of the thing, in every coordinate. *)
Record followed_with_gaps {FO : filter_ops RNum} (cap delay : Z) (K : R) (object_of : nat -> nat) (fs : list (frame FO)) : Prop := {
  fg_distinct : forall a b k, (a < things)%nat -> (b < things)%nat -> (k < length fs)%nat -> credit cap a k <> None -> credit cap b k <> None ->
     object_of a = object_of b -> a = b;
  fg_number : forall k f, nth_error fs k = Some f ->
     s_icount (f_post f) = length (filter (fun a => match credit cap a k with Some _ => true | None => false end) (seq 0 things));
  fg_tracked : forall k f i, nth_error fs k = Some f -> (tracked (f_post f) i <->
     exists a h, (a < things)%nat /\ credit cap a k = Some h /\ (-1 <= h)%Z /\ i = object_of a);
  fg_matched : forall k f a, nth_error fs k = Some f -> (a < things)%nat -> vis k a = true -> last_det (f_post f) (object_of a) = ref k a;
  fg_missed : forall k f a h, nth_error fs (S k) = Some f -> (a < things)%nat -> credit cap a k = Some h -> vis (S k) a = false ->
     last_det (f_post f) (object_of a) = last_det (f_pre f) (object_of a);
  fg_coasts : forall k f a h, nth_error fs (S k) = Some f -> (a < things)%nat -> credit cap a k = Some h -> (0 <= h)%Z -> vis (S k) a = false ->
     rectangular n dim (estimate (s_store (f_post f) (object_of a))) /\
     forall p q, (p < n)%nat -> (q < dim)%nat ->
       Rabs (entry (estimate (s_store (f_post f) (object_of a))) p q - entry (pos a (S k)) p q) <= K * Rabs (entry (v a) p q);
  fg_counter : forall k f a h, nth_error fs k = Some f -> (a < things)%nat -> credit cap a k = Some h -> (-1 <= h)%Z ->
     hit_counter (f_post f) (object_of a) = h;
  fg_returned : forall k f i, nth_error fs k = Some f -> (In i (f_out f) <->
     exists a h, (a < things)%nat /\ credit cap a k = Some h /\ (0 <= h)%Z /\ i = object_of a /\
     exists k' h', (k' <= k)%nat /\ credit cap a k' = Some h' /\ (delay < h')%Z)
}.
End S.

(** A new tracker gets the calls of a scene whose things are told apart: no call raises, and all things are followed, each
    by one object.  [G] bounds the calls without a detection between two detections of a thing. *)
Definition follows_gaps (FO : filter_ops RNum) (G : nat) (cap : Z) (K : R) : Prop :=
  forall n dim things x v lab ref vis dist threshold (c : tconf FO) ins heap g dummy, (0 < n)%nat -> (0 < dim)%nat ->
  In dist point_distances -> scene_tracker dist threshold c -> tc_reid_max c = None -> tc_hit_counter_max c = cap ->
  scene_with_gaps n dim things x v lab ref vis (tc_det_thr c) ins -> no_return things vis cap G (length ins) ->
  apart_with_gaps things x v lab vis dist cap K threshold (length ins) ->
  exists fs object_of, play c (new_tracker heap g dummy) ins = Some fs /\ length fs = length ins /\
    followed_with_gaps n dim things x v ref vis cap (tc_delay c) K object_of fs.

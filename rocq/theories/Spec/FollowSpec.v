(** Vocabulary for C85: a filter that learns a constant motion. *)
From Coq Require Import Reals Bool List Arith.
From Verif Require Import Model.Num Model.Base Model.Filter Model.Tracker Spec.KalmanSpec Spec.PointSpec.
From Verif Require Import Spec.CallSpec.
Import ListNotations.
Local Open Scope R_scope.

(** A filter created from [z0] and then used as the tracker does in calls in which the object is matched: one
    prediction and one correction per call. *)
Definition filter_run (FO : filter_ops RNum) (z0 : points RNum) (ms : list measurement) : fstate FO :=
  fold_left (fun s m => f_update FO (f_predict FO s) (me_z m) (map bit (me_mask m))) ms (f_create FO z0).

(** Coordinate [k] starts in [x] and is measured every time, at [x + v], [x + 2 v], ...; nothing is said about the
    other coordinates. *)
Definition moves_at (v x : R) (k : nat) (z0 : points RNum) (ms : list measurement) : Prop :=
  Forall (fits_dim (length (flatten z0))) ms /\ nth_error (flatten z0) k = Some x /\
  forall j m, nth_error ms j = Some m -> nth_error (me_mask m) k = Some true /\ nth_error (me_z m) k = Some (x + INR (S j) * v).

(** The filter's position and velocity of coordinate [k]; [z0] gives the number of coordinates. *)
Definition filter_at (FO : filter_ops RNum) (z0 : points RNum) (s : fstate FO) (k : nat) (y w : R) : Prop :=
  nth_error (f_x FO s) k = Some y /\ nth_error (f_x FO s) (k + length (flatten z0)) = Some w.

(** After enough calls, their number depending only on the speed, position and velocity are as exact as desired, and
    stay so. *)
Definition follows (FO : filter_ops RNum) : Prop := forall v eps, 0 < eps -> exists n0, forall z0 ms k x,
  moves_at v x k z0 ms -> (n0 <= length ms)%nat ->
  exists y w, filter_at FO z0 (filter_run FO z0 ms) k y w /\ Rabs (y - (x + INR (length ms) * v)) <= eps /\ Rabs (w - v) <= eps.

(** At all times the estimate is at most sqrt C times the speed away from the object. *)
Definition stays_within (FO : filter_ops RNum) (C : R) : Prop := forall v z0 ms k x, moves_at v x k z0 ms ->
  exists y w, filter_at FO z0 (filter_run FO z0 ms) k y w /\
    (y - (x + INR (length ms) * v)) * (y - (x + INR (length ms) * v)) <= C * (v * v).

(** The prediction for the next call is at most sqrt C times the speed away from the object. *)
Definition predicts_within (FO : filter_ops RNum) (C : R) : Prop := forall v z0 ms k x, moves_at v x k z0 ms ->
  exists y, nth_error (f_x FO (f_predict FO (filter_run FO z0 ms))) k = Some y /\
    (y - (x + INR (S (length ms)) * v)) * (y - (x + INR (S (length ms)) * v)) <= C * (v * v).

(** The constant of [predicts_within] for a filter with process noise [qp] (position) and [qv] (velocity), measurement
    noise [r] and initial covariance [[a0 b0] [b0 d0]]. *)
Definition prediction_constant (qp qv r a0 b0 d0 : R) : R :=
  Rmax 1 (2 * (r + Rmax (qv + 2 * (2 * r + qp)) (d0 + qv)) * a0 / (a0 * d0 - b0 * b0)).

(** Coordinate [b] of point [a]. *)
Definition coordinate (p : points RNum) (a b : nat) : option R :=
  match nth_error p a with Some row => nth_error row b | None => None end.

(** Object [i] is created in call [f0], with [n] points of dimension [dim] that all count; in each of the following
    calls it is matched with a new detection of this shape in which point [a] counts; coordinate [b] of this point is [x]
    in the first detection and advances by [v] per call. *)
Record steady_motion {FO : filter_ops RNum} (c : tconf FO) (f0 : frame FO) (fs : list (frame FO)) (i n dim a b : nat) (x v : R) : Prop := {
  sm_created : (s_icount (f_pre f0) < i <= s_icount (f_post f0))%nat;
  sm_shape : rectangular n dim (d_absolute_points (s_heap (f_post f0) (last_det (f_post f0) i)));
  sm_point : (a < n)%nat;
  sm_coordinate : (b < dim)%nat;
  sm_scores : forall sc, d_scores (s_heap (f_post f0) (last_det (f_post f0) i)) = Some sc -> length sc = n;
  sm_count : forall k, (k < n)%nat -> above (tc_det_thr c) (s_heap (f_post f0) (last_det (f_post f0) i)) k;
  sm_start : coordinate (d_absolute_points (s_heap (f_post f0) (last_det (f_post f0) i))) a b = Some x;
  sm_moves : forall j f, nth_error fs j = Some f ->
     let d := s_heap (f_post f) (last_det (f_post f) i) in
     seen f i /\ fresh f i /\ rectangular n dim (d_absolute_points d) /\ above (tc_det_thr c) d a /\
     coordinate (d_absolute_points d) a b = Some (x + INR (S j) * v)
}.

(** In every video of a tracker without re-identification: after enough calls, their number depending only on the speed
    and on the filter, estimate and estimate_velocity of a steadily moving object are as exact as desired, and stay so. *)
Definition tracker_learns (FO : filter_ops RNum) : Prop :=
  forall v eps, 0 < eps -> exists m0, forall (c : tconf FO) (s : st FO) f0 fs i n dim a b x,
  (forall d, dis_nan (tc_rnd c d) = dis_nan d) -> tracker_state c s -> tc_reid_distance c = None -> video c s (f0 :: fs) ->
  steady_motion c f0 fs i n dim a b x v ->
  forall m g, nth_error (f0 :: fs) m = Some g -> tracked (f_post g) i -> (m0 <= m)%nat ->
  exists y w, coordinate (absolute_estimate (s_store (f_post g) i)) a b = Some y /\
    coordinate (estimate_velocity (s_store (f_post g) i)) a b = Some w /\
    Rabs (y - (x + INR m * v)) <= eps /\ Rabs (w - v) <= eps.

(** In every call, from the first on, the estimate of a steadily moving object is at most sqrt C times the speed away. *)
Definition tracker_stays_within (FO : filter_ops RNum) (C : R) : Prop :=
  forall (c : tconf FO) (s : st FO) f0 fs i n dim a b x v,
  (forall d, dis_nan (tc_rnd c d) = dis_nan d) -> tracker_state c s -> tc_reid_distance c = None -> video c s (f0 :: fs) ->
  steady_motion c f0 fs i n dim a b x v ->
  forall m g, nth_error (f0 :: fs) m = Some g -> tracked (f_post g) i ->
  exists y, coordinate (absolute_estimate (s_store (f_post g) i)) a b = Some y /\
    (y - (x + INR m * v)) * (y - (x + INR m * v)) <= C * (v * v).

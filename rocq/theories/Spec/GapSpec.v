(** Vocabulary for C96: a steady motion that is not measured in every call. *)
From Coq Require Import Reals Bool List Arith.
From Verif Require Import Model.Num Model.Base Model.Filter Spec.KalmanSpec Spec.PointSpec Spec.FollowSpec.
Import ListNotations.
Local Open Scope R_scope.

(** A filter created from [z0] and then used as the tracker does: in every call a prediction, and a correction if the
    object is matched in the call. *)
Definition gap_run (FO : filter_ops RNum) (z0 : points RNum) (ms : list (option measurement)) : fstate FO :=
  fold_left (fun s o => match o with
    | Some m => f_update FO (f_predict FO s) (me_z m) (map bit (me_mask m))
    | None => f_predict FO s end) ms (f_create FO z0).

(** Coordinate [k] is [x] at first, and whenever there is a measurement, the one of call [j] is [x + (j + 1) v]. *)
Definition moves_with_gaps (v x : R) (k : nat) (z0 : points RNum) (ms : list (option measurement)) : Prop :=
  nth_error (flatten z0) k = Some x /\
  forall j m, nth_error ms j = Some (Some m) -> fits_dim (length (flatten z0)) m /\
    nth_error (me_mask m) k = Some true /\ nth_error (me_z m) k = Some (x + INR (S j) * v).

(** At most [G] calls without a measurement before one with; at most [T] calls since the last one. *)
Definition misses (l : list (option measurement)) : Prop := forall o, In o l -> o = None.
Definition gaps_at_most (G : nat) (ms : list (option measurement)) : Prop :=
  forall before l m after, ms = before ++ l ++ Some m :: after -> misses l -> (length l <= G)%nat.
Definition missed_at_most (T : nat) (ms : list (option measurement)) : Prop :=
  forall before l, ms = before ++ l -> misses l -> (length l <= T)%nat.

(** The prediction for the next call is at most sqrt C times the speed away from the object. *)
Definition coasts_within (FO : filter_ops RNum) (G T : nat) (C : R) : Prop :=
  forall v z0 ms k x, moves_with_gaps v x k z0 ms -> gaps_at_most G ms -> missed_at_most T ms ->
  exists y, nth_error (f_x FO (f_predict FO (gap_run FO z0 ms))) k = Some y /\
    (y - (x + INR (S (length ms)) * v)) * (y - (x + INR (S (length ms)) * v)) <= C * (v * v).

(** A bound [D] of the variance of the velocity in a filter with process noise [qp] (position) and [qv] (velocity),
    measurement noise [r] and initial covariance [[a0 b0] [b0 d0]], with gaps of at most [G] calls. *)
Definition velocity_bound (qp qv r b0 d0 : R) (G : nat) (D : R) : Prop :=
  d0 + INR (S G) * qv <= D /\
  exists s, 0 <= s <= 1 /\ (0 <= b0 \/ s = 1) /\ (1 - s) * (1 - s) * D + s * s * (2 * r + qp) + INR (S G) * qv <= D.

(** The constant for such a filter and [T] calls without a measurement. *)
Definition gap_constant (r a0 b0 d0 D : R) (T : nat) : R :=
  Rmax (INR (S T) * INR (S T)) ((sqrt r + INR (S T) * sqrt D) * (sqrt r + INR (S T) * sqrt D) * a0 / (a0 * d0 - b0 * b0)).

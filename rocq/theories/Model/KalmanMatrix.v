(** norfair/filter.py:18-94 [FilterPyKalmanFilterFactory] and the part of filterpy's [KalmanFilter] it
    uses, over the real numbers.

    filterpy is not part of /repo; [kf_predict] and [kf_update] below are the equations of its
    [KalmanFilter.predict] and [KalmanFilter.update] (the usual matrix Kalman filter, with the covariance
    update in Joseph form), without control input and with alpha = 1. *)
From Coq Require Import Reals List Arith Bool.
From Verif Require Import Model.Num Model.Base Model.Filter.
Import ListNotations.
Local Open Scope R_scope.

(** Matrices and vectors; dimensions are given to the operations, entries outside are irrelevant. *)
Definition mat := nat -> nat -> R.
Definition vec := nat -> R.

Fixpoint sum (n : nat) (f : nat -> R) : R := match n with O => 0 | S k => sum k f + f k end.
Definition mmul (n : nat) (A B : mat) : mat := fun i j => sum n (fun k => A i k * B k j).
Definition mvec (n : nat) (A : mat) (v : vec) : vec := fun i => sum n (fun k => A i k * v k).
Definition madd (A B : mat) : mat := fun i j => A i j + B i j.
Definition msub (A B : mat) : mat := fun i j => A i j - B i j.
Definition tr (A : mat) : mat := fun i j => A j i.
Definition eye : mat := fun i j => if Nat.eqb i j then 1 else 0.
Definition vadd (v w : vec) : vec := fun i => v i + w i.
Definition vsub (v w : vec) : vec := fun i => v i - w i.

(** State of filterpy's KalmanFilter that changes over time. *)
Record kstate := MkK { kx : vec; kP : mat }.

(** x = F x,  P = F P F^T + Q;  n = dim_x. *)
Definition kf_predict (n : nat) (F Q : mat) (s : kstate) : kstate :=
  {| kx := mvec n F (kx s);
     kP := madd (mmul n (mmul n F (kP s)) (tr F)) Q |}.

(** y = z - H x,  S = H P H^T + R,  K = P H^T S^-1,  x = x + K y,
    P = (I - K H) P (I - K H)^T + K R K^T;  n = dim_x, m = dim_z.
    [inv] is [numpy.linalg.inv]. *)
Definition kf_update (n m : nat) (inv : nat -> mat -> mat) (H R : mat) (z : vec) (s : kstate) : kstate :=
  let y := vsub z (mvec n H (kx s)) in
  let PHT := mmul n (kP s) (tr H) in
  let Sm := madd (mmul n H PHT) R in
  let K := mmul m PHT (inv m Sm) in
  let IKH := msub eye (mmul m K H) in
  {| kx := vadd (kx s) (mvec m K y);
     kP := madd (mmul n (mmul n IKH (kP s)) (tr IKH)) (mmul m (mmul m K R) (tr K)) |}.

(** filter.py:69-72: constant velocity, dt = 1;  d = dim_z. *)
Definition cv_F (d : nat) : mat := fun i j =>
  if Nat.eqb i j then 1 else if Nat.ltb i d && Nat.eqb (i + d) j then 1 else 0.
(** A 2d x 2d diagonal matrix with [a] in the position entries and [b] in the velocity entries. *)
Definition pos_vel_diag (d : nat) (a b : R) : mat := fun i j =>
  if Nat.eqb i j then if Nat.ltb i d then a else b else 0.
(** r times the identity. *)
Definition scalar_mat (r : R) : mat := fun i j => if Nat.eqb i j then r else 0.
(** tracker.py:638-657: [hstack([diag(mask), zeros])]. *)
Definition mask_H (diagonal : list R) : mat := fun i j => if Nat.eqb i j then nth i diagonal 0 else 0.

(** filter.py:40-43: the factory's parameters. *)
Record fp_params := MkFp { fp_R : R; fp_Q : R; fp_P : R }.
Definition fp_default_params : fp_params := {| fp_R := 4; fp_Q := 1 / 10; fp_P := 10 |}.

(** filter.py:45-94.  filterpy initializes P, Q and R as identity matrices; the factory multiplies
    R by [fp_R] (line 81), the velocity block of Q by [fp_Q] (line 85) and the velocity block of P by
    [fp_P] (line 92). *)
Record fp_filter := MkFpf { fpf_dim_z : nat; fpf_state : kstate; fpf_params : fp_params }.
Definition fp_create (p : fp_params) (initial_detection : points RNum) : fp_filter :=
  let z : list R := flatten (N := RNum) initial_detection in
  let d := length z in
  {| fpf_dim_z := d;
     fpf_state := {| kx := fun i => if Nat.ltb i d then nth i z 0 else 0;
                     kP := pos_vel_diag d 1 (fp_P p) |};
     fpf_params := p |}.
Definition fp_predict (f : fp_filter) : fp_filter :=
  let d := fpf_dim_z f in
  {| fpf_dim_z := d;
     fpf_state := kf_predict (2 * d) (cv_F d) (pos_vel_diag d 1 (fp_Q (fpf_params f))) (fpf_state f);
     fpf_params := fpf_params f |}.
Definition fp_update (inv : nat -> mat -> mat) (f : fp_filter) (z diagonal : list R) : fp_filter :=
  let d := fpf_dim_z f in
  {| fpf_dim_z := d;
     fpf_state := kf_update (2 * d) d inv (mask_H diagonal) (scalar_mat (fp_R (fpf_params f)))
                    (fun i => nth i z 0) (fpf_state f);
     fpf_params := fpf_params f |}.
Definition fp_x (f : fp_filter) : list R := map (kx (fpf_state f)) (seq 0 (2 * fpf_dim_z f)).
Definition fp_set_x (f : fp_filter) (x : list R) : fp_filter :=
  {| fpf_dim_z := fpf_dim_z f;
     fpf_state := {| kx := fun i => nth i x 0; kP := kP (fpf_state f) |};
     fpf_params := fpf_params f |}.

Definition fp_ops (inv : nat -> mat -> mat) (p : fp_params) : filter_ops RNum :=
  {| fstate := fp_filter; f_create := fp_create p; f_predict := fp_predict; f_update := fp_update inv;
     f_x := fp_x; f_set_x := fp_set_x |}.

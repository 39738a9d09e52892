(** What "a Kalman filter for points with constant velocity" means. *)
From Coq Require Import Reals Bool List Arith.
From Verif Require Import Model.Num Model.Base Model.Filter Model.KalmanMatrix.
Import ListNotations.
Local Open Scope R_scope.

(** [inv] inverts diagonal matrices without zero on the diagonal (as numpy.linalg.inv does, which
    inverts all invertible matrices). *)
Definition inverts_diagonal (inv : nat -> mat -> mat) : Prop := forall n (A : mat),
  (forall i j, (i < n)%nat -> (j < n)%nat -> i <> j -> A i j = 0) -> (forall i, (i < n)%nat -> A i i <> 0) ->
  forall i j, (i < n)%nat -> (j < n)%nat -> inv n A i j = if Nat.eqb i j then / A i i else 0.

(** One frame in which the object was matched: the measurement and which coordinates are measured. *)
Definition bit (b : bool) : R := if b then 1 else 0.
Record measurement := MkMeas { me_z : list R; me_mask : list bool }.
Definition fits_dim (d : nat) (m : measurement) : Prop := length (me_z m) = d /\ length (me_mask m) = d.

(** The textbook filter: constant velocity model, process noise Q*I, measurement noise R*I and the given
    initial position and covariance; every step predicts and then corrects. *)
Definition textbook_start (p : okf_params RNum) (z : list R) : kstate :=
  let d := length z in
  {| kx := fun i => if Nat.ltb i d then nth i z 0 else 0;
     kP := fun i j =>
       if Nat.eqb i j then (if Nat.ltb i d then kp_pos_variance p else kp_vel_variance p)
       else if Nat.eqb (i + d) j || Nat.eqb (j + d) i then kp_pos_vel_covariance p else 0 |}.
Definition textbook_step (inv : nat -> mat -> mat) (p : okf_params RNum) (d : nat) (s : kstate) (m : measurement) : kstate :=
  kf_update (2 * d) d inv (mask_H (map bit (me_mask m))) (scalar_mat (kp_R p)) (fun i => nth i (me_z m) 0)
    (kf_predict (2 * d) (cv_F d) (scalar_mat (kp_Q p)) s).
Definition textbook_run inv p (z0 : list R) (ms : list measurement) : kstate :=
  fold_left (textbook_step inv p (length z0)) ms (textbook_start p z0).

(** The optimized filter fed with the same measurements. *)
Definition okf_step (s : okf RNum) (m : measurement) : okf RNum :=
  okf_update (okf_predict s) (me_z m) (map bit (me_mask m)).
Definition okf_run p (z0 : points RNum) (ms : list measurement) : okf RNum :=
  fold_left okf_step ms (okf_create p z0).

(** Arbitrary use of a filter: predictions and corrections in any order. *)
Inductive action := Predict | Correct (m : measurement).
Definition okf_do (s : okf RNum) (a : action) : okf RNum :=
  match a with Predict => okf_predict s | Correct m => okf_update s (me_z m) (map bit (me_mask m)) end.
Definition okf_acts p (z0 : points RNum) (l : list action) : okf RNum := fold_left okf_do l (okf_create p z0).
Definition action_fits (d : nat) (a : action) : Prop := match a with Predict => True | Correct m => fits_dim d m end.

(** The textbook filter under the same actions. *)
Definition textbook_do (inv : nat -> mat -> mat) (p : okf_params RNum) (d : nat) (s : kstate) (a : action) : kstate :=
  match a with
  | Predict => kf_predict (2 * d) (cv_F d) (scalar_mat (kp_Q p)) s
  | Correct m => kf_update (2 * d) d inv (mask_H (map bit (me_mask m))) (scalar_mat (kp_R p)) (fun i => nth i (me_z m) 0) s
  end.
Definition textbook_acts inv p (z0 : list R) (l : list action) : kstate :=
  fold_left (textbook_do inv p (length z0)) l (textbook_start p z0).

(** Parameters of the factory: positive definite / positive semidefinite initial covariance. *)
Definition start_psd (p : okf_params RNum) : Prop := 0 <= kp_pos_variance p /\ 0 <= kp_vel_variance p /\
  kp_pos_vel_covariance p * kp_pos_vel_covariance p <= kp_pos_variance p * kp_vel_variance p.
Definition start_pd (p : okf_params RNum) : Prop := 0 < kp_pos_variance p /\ 0 < kp_vel_variance p /\
  kp_pos_vel_covariance p * kp_pos_vel_covariance p < kp_pos_variance p * kp_vel_variance p.

(** In coordinate [k] the second action does the same as the first with the measurement shifted by [t];
    nothing is said about other coordinates and about values that are not measured. *)
Inductive shifted (k : nat) (t : R) : action -> action -> Prop :=
| shifted_predict : shifted k t Predict Predict
| shifted_correct m m' b : nth_error (me_mask m) k = Some b -> nth_error (me_mask m') k = Some b ->
    (b = true -> exists x, nth_error (me_z m) k = Some x /\ nth_error (me_z m') k = Some (x + t)) ->
    shifted k t (Correct m) (Correct m').

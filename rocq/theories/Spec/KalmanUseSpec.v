(** Arbitrary use of filterpy's filter, and a matrix filter whose covariance lags behind. *)
From Coq Require Import Reals Bool List Arith.
From Verif Require Import Model.Num Model.Base Model.Filter Model.KalmanMatrix Spec.KalmanSpec.
Import ListNotations.
Local Open Scope R_scope.

(** The filter made by [FilterPyKalmanFilterFactory] under predictions and corrections in any order. *)
Definition fp_do (inv : nat -> mat -> mat) (f : fp_filter) (a : action) : fp_filter :=
  match a with Predict => fp_predict f | Correct m => fp_update inv f (me_z m) (map bit (me_mask m)) end.
Definition fp_acts inv (p : fp_params) (z0 : points RNum) (l : list action) : fp_filter := fold_left (fp_do inv) l (fp_create p z0).

(** The textbook filter with one change: predict() moves the state but leaves the covariance; update() first
    advances the covariance by one step, whatever the number of predictions since the last update. *)
Definition lagging_do (inv : nat -> mat -> mat) (p : okf_params RNum) (d : nat) (s : kstate) (a : action) : kstate :=
  match a with
  | Predict => {| kx := kx (kf_predict (2 * d) (cv_F d) (scalar_mat (kp_Q p)) s); kP := kP s |}
  | Correct m => kf_update (2 * d) d inv (mask_H (map bit (me_mask m))) (scalar_mat (kp_R p)) (fun i => nth i (me_z m) 0)
                   {| kx := kx s; kP := kP (kf_predict (2 * d) (cv_F d) (scalar_mat (kp_Q p)) s) |}
  end.
Definition lagging_acts inv p (z0 : list R) (l : list action) : kstate :=
  fold_left (lagging_do inv p (length z0)) l (textbook_start p z0).

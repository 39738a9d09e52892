(** Vocabulary for C103: estimates as weighted sums of measurements. *)
From Coq Require Import Reals Bool List.
From Verif Require Import Model.Num Model.Base Model.Filter Spec.KalmanSpec.
Import ListNotations.
Local Open Scope R_scope.

(** What is done to coordinate [k]: None for a prediction, for a correction whether the coordinate is measured. *)
Definition pattern (k : nat) (l : list action) : list (option bool) :=
  map (fun a => match a with Predict => None | Correct m => Some (nth k (me_mask m) false) end) l.
(** The measurements of coordinate [k], 0 where there is none. *)
Definition readings (k : nat) (l : list action) : list R :=
  map (fun a => match a with Predict => 0 | Correct m => if nth k (me_mask m) false then nth k (me_z m) 0 else 0 end) l.
Definition total (l : list R) : R := fold_right Rplus 0 l.
Definition weighted (w z : list R) : R := total (map (fun wz => fst wz * snd wz) (combine w z)).
(** One weight for the first detection and one for each action, with sum [s], 0 where nothing is measured. *)
Definition weights_for (pat : list (option bool)) (w : list R) (s : R) : Prop :=
  length w = S (length pat) /\ total w = s /\ forall j, nth_error pat j <> Some (Some true) -> nth (S j) w 0 = 0.

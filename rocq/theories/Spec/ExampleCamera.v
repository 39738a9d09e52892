(** A camera that moves along the x axis; image number z is displaced by z pixels. *)
From Coq Require Import ZArith QArith Reals Bool List.
From Verif Require Import Model.Num Model.Base Model.Tracker Model.CameraMotion Spec.CameraSpec.
Import ListNotations.

(** np.around on the numbers that occur here (integers). *)
Definition ex_around (x : R) : R := IZR (Int_part (x + / 2)).

(** Four corners; the flow is the difference of the displacements, except that all points are lost between images
    [g] and [g'] when [lost g g']. *)
Definition ex_corners : points RNum := [[0; 0]; [10; 0]; [0; 10]; [10; 10]]%R.
Definition ex_vision (lost : Z -> Z -> bool) : vision RNum :=
  MkVision Z Z unit (fun z => Ret z) (fun _ _ => Ret (Some ex_corners))
    (fun g g' prev => Ret (map (@shifted_by RNum [IZR (g' - g); 0%R]) prev, map (fun _ => negb (lost g g')) prev)).
Definition ex_displacement (z : Z) : list R := [IZR z; 0%R].
Definition never (_ _ : Z) : bool := false.

(** findHomography on such points. *)
Definition ex_shift (dx dy : R) : mat3 RNum := @MkM RNum 1%R 0%R dx 0%R 1%R dy 0%R 0%R 1%R.
Definition ex_find (prev curr : points RNum) : result (option (mat3 RNum) * option (list bool)) :=
  match prev, curr with
  | (px :: py :: _) :: _, (cx :: cy :: _) :: _ => Ret (Some (ex_shift (cx - px)%R (cy - py)%R), Some (map (fun _ => true) prev))
  | _, _ => Ret (None, None)
  end.
Definition ex_homography (z : Z) : mat3 RNum := ex_shift (IZR z) 0.

(** The same over the rationals, with an optical flow that fails for image 2. *)
Definition exq_vision : vision QNum :=
  MkVision Z Z unit (fun z => Ret z) (fun _ _ => Ret (Some [[0; 0]; [10; 0]; [0; 10]; [10; 10]]%Q : option (points QNum)))
    (fun g g' prev => if Z.eqb g' 2 then Raise ERuntimeError
                      else Ret (map (@shifted_by QNum [inject_Z (g' - g); 0%Q]) prev, map (fun _ => true) prev)).
Definition exq_find (prev curr : points QNum) : result (option (mat3 QNum) * option (list bool)) :=
  match prev, curr with
  | (px :: py :: _) :: _, (cx :: cy :: _) :: _ =>
    Ret (Some (@MkM QNum 1%Q 0%Q (cx - px)%Q 0%Q 1%Q (cy - py)%Q 0%Q 0%Q 1%Q), Some (map (fun _ => true) prev))
  | _, _ => Ret (None, None)
  end.

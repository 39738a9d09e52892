(** A small concrete tracker used to show that hypotheses of theorems are satisfiable: rational
    numbers, one-dimensional points, distance |detection - estimate|. *)
From Coq Require Import ZArith QArith List String.
From Verif Require Import Model.Num Model.Base Model.Filter Model.Float32 Model.Tracker.
Import ListNotations.
Local Open Scope nat_scope.

Definition exF : filter_ops QNum := nofilter_ops QNum.
Definition ex_point (p : points QNum) : Q := match p with (x :: _) :: _ => x | _ => 0%Q end.
Definition ex_abs (x : Q) : Q := if Qlt_le_dec x 0 then Qopp x else x.
Definition ex_distance (c : cview exF) (o : oview exF) : result (dval QNum) :=
  let z := match c with VDet d => d_absolute_points d | VObj o' => estimate (v_obj o') end in
  Ret (DFin (ex_abs (Qred (Qminus (ex_point z) (ex_point (estimate (v_obj o))))) : QNum)).

(** hit_counter_max 3, initialization_delay 1, pointwise maximum 3, detection threshold 0,
    past_detections_length 2, distance_threshold 5, no re-identification. *)
Definition ex_conf : tconf exF :=
  MkTconf (ScalarDistance ex_distance) (DFin (5%Q : QNum)) 3 1 3 (0%Q : QNum) 2 None (DFin (0%Q : QNum)) None round32.
(** The same with re-identification: reid threshold 50, reid_hit_counter_max [r]. *)
Definition ex_conf_reid (r : Z) : tconf exF :=
  MkTconf (ScalarDistance ex_distance) (DFin (5%Q : QNum)) 3 1 3 (0%Q : QNum) 2
    (Some ex_distance) (DFin (50%Q : QNum)) (Some r) round32.

Definition ex_det (x : Q) : detection QNum := new_detection [[(x : QNum)]] None [] LNone.
Definition ex_dummy : tobj exF :=
  MkObj (FO:=exF) (MkOconf (N:=QNum) 0 0 0 0%Z 0%Z 0%Z (0%Q : QNum) 0%Z None 0 LNone) 0%Z None None None 0 0%Z true None None [] [] []
    (MkNoFilter (N:=QNum) 0 []) None.
Definition ex_init : world exF := init_world (fun _ => ex_det 0) ex_dummy.

(** Two objects near 0 and 100 seen by tracker 0, one by tracker 1. *)
Definition ex_ops : list (op QNum) :=
  [OpDet 1 (ex_det 0); OpDet 2 (ex_det 100); OpUpdate 0 (Some [1; 2]) 1%Z None;
   OpDet 3 (ex_det 1); OpDet 4 (ex_det 101); OpUpdate 0 (Some [3; 4]) 1%Z None;
   OpDet 5 (ex_det 50); OpUpdate 1 (Some [5]) 1%Z None;
   OpDet 6 (ex_det 51); OpUpdate 1 (Some [6]) 1%Z None;
   OpDet 7 (ex_det 2); OpUpdate 0 (Some [7]) 1%Z None].
Definition ex_world : world exF := run (fun _ => ex_conf) ex_init ex_ops.

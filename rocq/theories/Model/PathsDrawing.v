(** norfair/drawing/path.py:43-122 [Paths] with the objects it is given.  The circles painted into the mask and the sum of
    mask and frame are those of Model/Drawing.v. *)
From Coq Require Import ZArith QArith Bool Arith List.
From Verif Require Import Model.Num Model.Base Model.Filter Model.Tracker Model.Images Model.Color Model.Drawing.
Import ListNotations.
Local Open Scope nat_scope.

(** path.py:43-66 [Paths.__init__]; the mask is there after the first frame. *)
Record paths := MkPaths {
  ph_points : option (points QNum -> points QNum); ph_thickness : option Z; ph_radius : option Z; ph_color : option bgr;
  ph_attenuation : Q; ph_mask : option canvas }.
Definition paths_new points thickness color radius attenuation : paths := MkPaths points thickness radius color attenuation None.

(** path.py:53-54: [[np.mean(np.array(points), axis=0)]].  SIMPLIFICATION: there is a point (else NaN). *)
Definition mean_point (ps : points QNum) : points QNum :=
  match ps with
  | [] => []
  | r :: _ => [map (fun k => (qsum (map (fun r => nth k r 0) ps) / inject_Z (Z.of_nat (length ps)))%Q) (seq 0 (length r))]
  end.

(** path.py:88-94: radius and thickness follow from the height of the first frame; [int(max(..., 1))]. *)
Definition at_least_one (q : Q) : Z := trunc (if Qle_bool 1 q then q else 1%Q).
Definition first_frame (height : Z) (p : paths) : paths :=
  match ph_mask p with
  | Some _ => p
  | None =>
    MkPaths (ph_points p) (Some (match ph_thickness p with Some t => t | None => at_least_one (inject_Z height / 100 / 7) end))
      (Some (match ph_radius p with Some r => r | None => at_least_one (inject_Z height / 100 * (7 # 10)) end))
      (ph_color p) (ph_attenuation p) (Some (fun _ _ => [0; 0; 0]%Z))
  end.

Section P.
Context {FO : filter_ops QNum}.
(** path.py:106-119: the circles of one object; choosing a color may fail.
    SIMPLIFICATION: [get_points_to_draw] does not fail. *)
Definition object_circles (pal : palette) (p : paths) (o : tobj FO) : result (list (position * bgr)) :=
  match (match ph_color p with None => choose_color pal (hash_id (o_id o)) | Some c => Ret c end) with
  | Raise e => Raise e
  | Ret c => Ret (map (fun q => (int_point q, c)) (match ph_points p with None => mean_point | Some f => f end (estimate o)))
  end.
(** path.py:100-119: the loop up to the first exception. *)
Fixpoint all_circles (pal : palette) (p : paths) (os : list (tobj FO)) : list (position * bgr) * option exn :=
  match os with
  | [] => ([], None)
  | o :: os' =>
    match object_circles pal p o with
    | Raise e => ([], Some e)
    | Ret cs => let '(cs', e) := all_circles pal p os' in (cs ++ cs', e)
    end
  end.
(** path.py:68-122 [Paths.draw].  [disc radius thickness] are the pixels painted by cv2.circle.
    SIMPLIFICATION: all frames have the same size and three channels (cv2.addWeighted raises otherwise). *)
Definition paths_step (disc : Z -> Z -> position -> Z -> Z -> bool) (pal : palette) (p : paths) (height : Z) (frame : canvas) (os : list (tobj FO))
  : paths * result canvas :=
  let p1 := first_frame height p in
  let d := match ph_radius p1, ph_thickness p1 with Some r, Some t => disc r t | _, _ => fun _ _ _ => false end in
  let '(cs, e) := all_circles pal p1 os in
  let '(mask, out) := paths_draw d (ph_attenuation p1) (ph_mask p1) frame cs in
  (MkPaths (ph_points p1) (ph_thickness p1) (ph_radius p1) (ph_color p1) (ph_attenuation p1) (Some mask),
   match e with None => Ret out | Some e => Raise e end).
(** path.py:101-104: whether the call asks [warn_once] for the warning. *)
Fixpoint paths_warns (pal : palette) (p : paths) (os : list (tobj FO)) : bool :=
  match os with
  | [] => false
  | o :: os' =>
    match o_abs_to_rel o with
    | Some _ => true
    | None => match object_circles pal p o with Raise _ => false | Ret _ => paths_warns pal p os' end
    end
  end.
End P.

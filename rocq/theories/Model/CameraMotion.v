(** norfair/camera_motion.py: coordinate transformations, their getters and [MotionEstimator.update]. *)
From Coq Require Import ZArith QArith Bool Arith List.
From Verif Require Import Model.Num Model.Base Model.Tracker.
Import ListNotations.
Local Open Scope nat_scope.

Section Camera.
Context {N : Num}.
Local Open Scope num_scope.

(** A non-negative int as a float. *)
Definition n_of_nat (k : nat) : N := nofQ (inject_Z (Z.of_nat k)).

(* ------------------------------------------------------------------------------------------ *)
(** ** Translations *)

(** camera_motion.py:58-75 [TranslationTransformation].  SIMPLIFICATION: every row has the length of the
    vector (numpy raises or broadcasts otherwise). *)
Definition translation (movement_vector : list N) : coord_transformation N :=
  {| ct_abs_to_rel := fun points => map (fun row => map2 nadd row movement_vector) points;
     ct_rel_to_abs := fun points => map (fun row => map2 nsub row movement_vector) points |}.

(** Equality and lexicographic order of rows, used by [np.unique(axis=0)]. *)
Fixpoint row_eqb (a b : list N) : bool :=
  match a, b with
  | [], [] => true
  | x :: a', y :: b' => neqb x y && row_eqb a' b'
  | _, _ => false
  end.
Fixpoint row_ltb (a b : list N) : bool :=
  match a, b with
  | [], [] => false
  | [], _ :: _ => true
  | _ :: _, [] => false
  | x :: a', y :: b' => nltb x y || (neqb x y && row_ltb a' b')
  end.
(** Sorted, without duplicates. *)
Fixpoint insert_row (r : list N) (l : list (list N)) : list (list N) :=
  match l with
  | [] => [r]
  | s :: l' => if row_eqb r s then l else if row_ltb r s then r :: l else s :: insert_row r l'
  end.
Definition unique_rows (l : list (list N)) : list (list N) := fold_right insert_row [] l.
Definition count_row (r : list N) (l : list (list N)) : nat := length (filter (row_eqb r) l).
(** [counts.argmax()]: the first row with the largest count. *)
Fixpoint best_row (l : list (list N)) (best : list N) (rows : list (list N)) : list N :=
  match rows with
  | [] => best
  | r :: rows' => best_row l (if Nat.ltb (count_row best l) (count_row r l) then r else best) rows'
  end.

(** camera_motion.py:97-102 [TranslationTransformationGetter.__init__]. *)
Record tgetter := MkTG { tg_bin : N; tg_threshold : N; tg_data : option (list N) }.
Definition tg_new (bin_size threshold : N) : tgetter := MkTG bin_size threshold None.

(** camera_motion.py:108-111; [around] is [np.around]. *)
Definition binned_flow (around : N -> N) (bin : N) (curr prev : points N) : points N :=
  map2 (map2 (fun c p => around ((c - p) / bin) * bin)) curr prev.

(** camera_motion.py:104-129.  [None - None] raises TypeError, [argmax] of no rows ValueError.
    SIMPLIFICATION: the two arrays have the same shape, as those of [_get_sparse_flow] do. *)
Definition tg_call (around : N -> N) (g : tgetter) (curr_pts prev_pts : option (points N))
  : tgetter * result (bool * option (list N)) :=
  match curr_pts, prev_pts with
  | Some curr, Some prev =>
    let flow := binned_flow around (tg_bin g) curr prev in
    match unique_rows flow with
    | [] => (g, Raise EValueError)
    | r :: rows =>
      let mode := best_row flow r rows in
      let update_prvs := nltb (n_of_nat (count_row mode flow) / n_of_nat (length prev)) (tg_threshold g) in
      let flow_mode := match tg_data g with Some d => map2 nadd mode d | None => mode end in
      ((if update_prvs then MkTG (tg_bin g) (tg_threshold g) (Some flow_mode) else g),
       Ret (update_prvs, Some flow_mode))
    end
  | _, _ => (g, Raise ETypeError)
  end.

(* ------------------------------------------------------------------------------------------ *)
(** ** Homographies *)

Record mat3 := MkM { m00 : N; m01 : N; m02 : N; m10 : N; m11 : N; m12 : N; m20 : N; m21 : N; m22 : N }.

Definition mat3_mul (a b : mat3) : mat3 :=
  MkM (m00 a * m00 b + m01 a * m10 b + m02 a * m20 b) (m00 a * m01 b + m01 a * m11 b + m02 a * m21 b) (m00 a * m02 b + m01 a * m12 b + m02 a * m22 b)
      (m10 a * m00 b + m11 a * m10 b + m12 a * m20 b) (m10 a * m01 b + m11 a * m11 b + m12 a * m21 b) (m10 a * m02 b + m11 a * m12 b + m12 a * m22 b)
      (m20 a * m00 b + m21 a * m10 b + m22 a * m20 b) (m20 a * m01 b + m21 a * m11 b + m22 a * m21 b) (m20 a * m02 b + m21 a * m12 b + m22 a * m22 b).

Definition det3 (a : mat3) : N :=
  m00 a * (m11 a * m22 a - m12 a * m21 a) - m01 a * (m10 a * m22 a - m12 a * m20 a) + m02 a * (m10 a * m21 a - m11 a * m20 a).

(** [np.linalg.inv] of a 3x3 matrix (here by cofactors): LinAlgError when it is singular. *)
Definition inv3 (a : mat3) : result mat3 :=
  let d := det3 a in
  if neqb d n0 then Raise ELinAlgError else
  Ret (MkM ((m11 a * m22 a - m12 a * m21 a) / d) ((m02 a * m21 a - m01 a * m22 a) / d) ((m01 a * m12 a - m02 a * m11 a) / d)
           ((m12 a * m20 a - m10 a * m22 a) / d) ((m00 a * m22 a - m02 a * m20 a) / d) ((m02 a * m10 a - m00 a * m12 a) / d)
           ((m10 a * m21 a - m11 a * m20 a) / d) ((m01 a * m20 a - m00 a * m21 a) / d) ((m00 a * m11 a - m01 a * m10 a) / d)).

(** One row of camera_motion.py:149-166: append 1, multiply, replace a last coordinate 0 by 1e-7, divide.
    SIMPLIFICATION: points are two-dimensional (the matrix product raises otherwise). *)
Definition tiny : N := nofQ (1 # 10000000).
Definition project (m : mat3) (row : list N) : list N :=
  match row with
  | [x; y] =>
    let w := m20 m * x + m21 m * y + m22 m in
    let w := if neqb w n0 then tiny else w in
    [(m00 m * x + m01 m * y + m02 m) / w; (m10 m * x + m11 m * y + m12 m) / w]
  | _ => []
  end.

(** camera_motion.py:135-166 [HomographyTransformation]: the matrix and its inverse. *)
Record homography := MkHom { h_matrix : mat3; h_inverse : mat3 }.
Definition homography_new (m : mat3) : result homography :=
  match inv3 m with Raise e => Raise e | Ret i => Ret (MkHom m i) end.
Definition homography_ct (h : homography) : coord_transformation N :=
  {| ct_abs_to_rel := fun points => map (project (h_matrix h)) points;
     ct_rel_to_abs := fun points => map (project (h_inverse h)) points |}.

(** camera_motion.py:199-214 [HomographyTransformationGetter.__init__] (the parameters of findHomography are
    part of the function [find] below). *)
Record hgetter := MkHG { hg_threshold : N; hg_data : option mat3 }.
Definition hg_new (threshold : N) : hgetter := MkHG threshold None.

Definition enough (pts : option (points N)) : bool := match pts with Some p => Nat.leb 4 (length p) | None => false end.

(** camera_motion.py:216-256.  [find prev curr] is [cv2.findHomography], which returns a matrix or None and a
    mask of the points used or None. *)
Definition hg_call (find : points N -> points N -> result (option mat3 * option (list bool)))
    (g : hgetter) (curr_pts prev_pts : option (points N)) : hgetter * result (bool * option homography) :=
  match (if enough prev_pts && enough curr_pts then prev_pts else None), curr_pts with
  | Some prev, Some curr =>
    match find prev curr with
    | Raise e => (g, Raise e)
    | Ret (matrix, points_used) =>
      match points_used with
      | None => (g, Raise ETypeError)                                  (* len(None) *)
      | Some used =>
        let update_prvs := nltb (n_of_nat (length (filter (fun b => b) used)) / n_of_nat (length used)) (hg_threshold g) in
        let matrix := match matrix, hg_data g with Some m, Some d => Some (mat3_mul m d) | _, _ => matrix end in
        let g := if update_prvs then MkHG (hg_threshold g) matrix else g in
        match matrix with
        | None => (g, Raise ELinAlgError)                              (* np.linalg.inv(None) *)
        | Some m => match homography_new m with
                    | Raise e => (g, Raise e)
                    | Ret h => (g, Ret (update_prvs, Some h))
                    end
        end
      end
    end
  | _, _ =>
    match hg_data g with
    | Some m => match homography_new m with
                | Raise e => (g, Raise e)
                | Ret h => (g, Ret (true, Some h))
                end
    | None => (g, Ret (true, None))
    end
  end.

(* ------------------------------------------------------------------------------------------ *)
(** ** MotionEstimator *)

(** Rows of [a] whose status is 1. *)
Fixpoint keep {A} (status : list bool) (a : list A) : list A :=
  match status, a with
  | s :: status', x :: a' => if s then x :: keep status' a' else keep status' a'
  | _, _ => []
  end.

(** The functions of OpenCV: images, masks and their processing are arbitrary and may raise. *)
Record vision := MkVision {
  frame_t : Type;
  gray_t : Type;
  mask_t : Type;
  to_gray : frame_t -> result gray_t;                                                (* cvtColor *)
  corners : gray_t -> option mask_t -> result (option (points N));                   (* goodFeaturesToTrack *)
  optical_flow : gray_t -> gray_t -> points N -> result (points N * list bool)       (* calcOpticalFlowPyrLK: points, status *)
}.

(** camera_motion.py:262-291 [_get_sparse_flow]: (curr_pts, prev_pts). *)
Definition sparse_flow (V : vision) (gray_next gray_prvs : gray_t V) (prev_pts : option (points N)) (mask : option (mask_t V))
  : result (points N * points N) :=
  match (match prev_pts with Some p => Ret (Some p) | None => corners V gray_prvs mask end) with
  | Raise e => Raise e
  | Ret None => Raise ERuntimeError                                    (* cv2.error *)
  | Ret (Some prev) =>
    match optical_flow V gray_prvs gray_next prev with
    | Raise e => Raise e
    | Ret (curr, status) => Ret (keep status curr, keep status prev)
    end
  end.

(** State of an estimator with a getter of type [G] (camera_motion.py:347-366). *)
Record estimator (V : vision) (G : Type) := MkEst {
  me_gray_prvs : option (gray_t V);
  me_prev_pts : option (points N);
  me_prev_mask : option (mask_t V);
  me_getter : G;
  me_getter_copy : G
}.
Arguments MkEst {V G} _ _ _ _ _.
Arguments me_gray_prvs {V G} _.
Arguments me_prev_pts {V G} _.
Arguments me_prev_mask {V G} _.
Arguments me_getter {V G} _.
Arguments me_getter_copy {V G} _.
Definition estimator_new (V : vision) {G} (getter : G) : estimator V G := MkEst None None None getter getter.

(** camera_motion.py:368-441 [update] with a getter that is called by [call] and returns transformations of
    type [T].  With draw_flow: [Model.FlowDrawing]. *)
Definition estimator_update {G T} (V : vision) (call : G -> option (points N) -> option (points N) -> G * result (bool * option T))
    (s : estimator V G) (frame : frame_t V) (mask : option (mask_t V)) : estimator V G * result (option T) :=
  match to_gray V frame with
  | Raise e => (s, Raise e)
  | Ret gray_next =>
    let '(gray_prvs, prev_mask) :=
      match me_gray_prvs s with None => (gray_next, mask) | Some g => (g, me_prev_mask s) end in
    let '(curr_pts, prev_pts) :=
      match sparse_flow V gray_next gray_prvs (me_prev_pts s) prev_mask with
      | Ret (c, p) => (Some c, Some p)
      | Raise _ => (None, None)
      end in
    let '(getter, update_prvs, transformation) :=
      match call (me_getter s) curr_pts prev_pts with
      | (g, Ret (u, t)) => (g, u, t)
      | (_, Raise _) => (me_getter_copy s, true, None)
      end in
    ((if update_prvs : bool
      then MkEst (Some gray_next) None mask getter (me_getter_copy s)
      else MkEst (Some gray_prvs) prev_pts prev_mask getter (me_getter_copy s)),
     Ret transformation)
  end.

(** A video: the frames with their masks; the transformations returned. *)
Fixpoint estimate_video {G T} (V : vision) (call : G -> option (points N) -> option (points N) -> G * result (bool * option T))
    (s : estimator V G) (frames : list (frame_t V * option (mask_t V))) : list (result (option T)) :=
  match frames with
  | [] => []
  | (f, m) :: frames' =>
    let (s', r) := estimator_update V call s f m in r :: estimate_video V call s' frames'
  end.
End Camera.

Arguments vision : clear implicits.
Arguments estimator {N} V G.
Arguments MkEst {N V G} _ _ _ _ _.
Arguments mat3 : clear implicits.
Arguments homography : clear implicits.
Arguments tgetter : clear implicits.
Arguments hgetter : clear implicits.
Arguments me_gray_prvs {N V G} _.
Arguments me_prev_pts {N V G} _.
Arguments me_prev_mask {N V G} _.
Arguments me_getter {N V G} _.
Arguments me_getter_copy {N V G} _.

(** norfair/distances.py:210-538: the built-in distance functions and [get_distance_by_name].

    [iou] needs only ring operations, division and comparisons and is written over any [Num]; the
    functions with square roots are written over the real numbers. *)
From Coq Require Import ZArith Reals Bool Arith String.
From Coq Require Import List.
From Verif Require Import Model.Num Model.Base Model.Filter Model.Tracker.
Import ListNotations.

(* ------------------------------------------------------------------------------------------ *)
(** ** numpy division and sums: 0/0 is NaN, x/0 is an infinity *)
Section Arith.
Context {N : Num}.

(** [x / y] on floats. *)
Definition fdiv (x y : N) : dval N :=
  if neqb y n0
  then if neqb x n0 then DNaN else if nltb x n0 then DNInf else DPInf
  else DFin (ndiv x y).
(** [1 - v]. *)
Definition one_minus (v : dval N) : dval N :=
  match v with DNaN => DNaN | DNInf => DPInf | DFin x => DFin (nsub n1 x) | DPInf => DNInf end.
(** [v + w]. *)
Definition dadd (v w : dval N) : dval N :=
  match v, w with
  | DNaN, _ => DNaN
  | _, DNaN => DNaN
  | DFin x, DFin y => DFin (nadd x y)
  | DPInf, DNInf => DNaN
  | DNInf, DPInf => DNaN
  | DPInf, _ => DPInf
  | _, DPInf => DPInf
  | DNInf, _ => DNInf
  | _, DNInf => DNInf
  end.
Definition dsum (l : list (dval N)) : dval N := fold_right dadd (DFin n0) l.
(** [v ** 2]. *)
Definition dsquare (v : dval N) : dval N :=
  match v with DNaN => DNaN | DFin x => DFin (nmul x x) | _ => DPInf end.

(* ------------------------------------------------------------------------------------------ *)
(** ** distances.py:327-384 [iou] *)

(** [_boxes_area]: distances.py:327-331. *)
Definition box_area (b : list N) : N :=
  nmul (nsub (nth 2 b n0) (nth 0 b n0)) (nsub (nth 3 b n0) (nth 1 b n0)).

(** One entry of the matrix: distances.py:370-381. *)
Definition iou_entry (c o : list N) : dval N :=
  let left := nmax (nth 0 c n0) (nth 0 o n0) in
  let top := nmax (nth 1 c n0) (nth 1 o n0) in
  let right := nmin (nth 2 c n0) (nth 2 o n0) in
  let bottom := nmin (nth 3 c n0) (nth 3 o n0) in
  let inter := nmul (nmax (nsub right left) n0) (nmax (nsub bottom top) n0) in
  one_minus (fdiv inter (nsub (nadd (box_area c) (box_area o)) inter)).

(** distances.py:348-381 [iou] of two stacks of rows.  Candidates must have four columns
    ([_validate_bboxes], AssertionError; the warning about malformed boxes: [Model.BoxCheck]).  Objects
    with fewer than four columns give an IndexError ([boxes[3]]), with more a broadcasting ValueError. *)
Definition iou (candidates objects : list (list N)) : result (list (list (dval N))) :=
  if forallb (fun c => Nat.eqb (length c) 4) candidates
  then if forallb (fun o => Nat.leb 4 (length o)) objects
       then if forallb (fun o => Nat.eqb (length o) 4) objects
            then Ret (map (fun c => map (iou_entry c) objects) candidates)
            else Raise EValueError
       else Raise EIndexError
  else Raise EAssertionError.
End Arith.

(* ------------------------------------------------------------------------------------------ *)
(** ** distances.py:234-324, 464-538: functions with square roots *)
Local Open Scope R_scope.

(** [a - b] for two arrays of the same shape; other shapes raise ValueError.
    SIMPLIFICATION: numpy would broadcast an axis of length one. *)
Definition same_shape (a b : points RNum) : bool :=
  Nat.eqb (length a) (length b) && forallb (fun p => Nat.eqb (length (fst p)) (length (snd p))) (combine a b).
Definition array_sub (a b : points RNum) : result (points RNum) :=
  if same_shape a b then Ret (map2 (map2 Rminus) a b) else Raise EValueError.

Definition rsum (l : list R) : R := fold_right Rplus 0 l.
(** [np.linalg.norm] of a vector. *)
Definition norm2 (v : list R) : R := sqrt (rsum (map (fun x => x * x) v)).
Definition norm1 (v : list R) : R := rsum (map Rabs v).
(** [.mean()]; the mean of nothing is NaN. *)
Definition mean (l : list R) : dval RNum :=
  match l with [] => DNaN | _ => @DFin RNum (rsum l / INR (length l)) end.

(** The formulas on two arrays (first: detection.points, second: tracked_object.estimate). *)
(** distances.py:264. *)
Definition frobenius_arrays (a b : points RNum) : result (dval RNum) :=
  match array_sub a b with
  | Raise e => Raise e
  | Ret m => Ret (@DFin RNum (norm2 (concat m)))
  end.
(** distances.py:291. *)
Definition mean_euclidean_arrays (a b : points RNum) : result (dval RNum) :=
  match array_sub a b with Raise e => Raise e | Ret m => Ret (mean (map norm2 m)) end.
(** distances.py:322-324. *)
Definition mean_manhattan_arrays (a b : points RNum) : result (dval RNum) :=
  match array_sub a b with Raise e => Raise e | Ret m => Ret (mean (map norm1 m)) end.

(** distances.py:494-500.  [scores > x] raises TypeError when scores is None; the product of masks of
    different lengths raises ValueError (SIMPLIFICATION: numpy would broadcast length one). *)
Definition above (thr : R) (scores : list R) : list bool := map (fun s => Rltb thr s) scores.
Definition keypoints_voting_arrays (distance_threshold score_threshold : R)
    (a b : points RNum) (det_scores last_scores : option (list R)) : result (dval RNum) :=
  match array_sub a b with
  | Raise e => Raise e
  | Ret m =>
    let close := map (fun row => Rltb (norm2 row) distance_threshold) m in
    match det_scores with
    | None => Raise ETypeError
    | Some ds =>
      if Nat.eqb (length close) (length ds) then
        match last_scores with
        | None => Raise ETypeError
        | Some ls =>
          if Nat.eqb (length close) (length ls) then
            let votes := map2 andb (map2 andb close (above score_threshold ds)) (above score_threshold ls) in
            Ret (@DFin RNum (1 / (1 + INR (count_occ Bool.bool_dec votes true))))
          else Raise EValueError
        end
      else Raise EValueError
    end
  end.

(** distances.py:531-536.  A row has a first and a second column (else IndexError); further columns are
    not normalized. *)
Definition normalize_row (width height : R) (row : list R) : result (list (dval RNum)) :=
  match row with
  | x :: y :: rest => Ret (@fdiv RNum x width :: @fdiv RNum y height :: map (@DFin RNum) rest)
  | _ => Raise EIndexError
  end.
Definition dsqrt (v : dval RNum) : dval RNum :=
  match v with DFin x => @DFin RNum (sqrt x) | DPInf => DPInf | _ => DNaN end.
Definition dmean (l : list (dval RNum)) : dval RNum :=
  match l with
  | [] => DNaN
  | _ => match dsum l with DFin x => @DFin RNum (x / INR (length l)) | v => v end
  end.
Definition normalized_mean_euclidean_arrays (height width : R) (a b : points RNum) : result (dval RNum) :=
  match array_sub a b with
  | Raise e => Raise e
  | Ret m =>
    match map_result (normalize_row width height) m with
    | Raise e => Raise e
    | Ret rows => Ret (dmean (map (fun row => dsqrt (dsum (map dsquare row))) rows))
    end
  end.

Section Scalar.
Context {FO : filter_ops RNum}.

(** The distance functions of a detection and an object.  A [TrackedObject] has no attribute [points], so
    they raise AttributeError when used to compare objects with objects (re-identification). *)
Definition on_points (f : points RNum -> points RNum -> result (dval RNum))
    (c : cview FO) (o : oview FO) : result (dval RNum) :=
  match c with
  | VDet d => f (d_points d) (estimate (v_obj o))
  | VObj _ => Raise EAttributeError
  end.
(** distances.py:234-264. *)
Definition frobenius : cview FO -> oview FO -> result (dval RNum) := on_points frobenius_arrays.
(** distances.py:267-291. *)
Definition mean_euclidean : cview FO -> oview FO -> result (dval RNum) := on_points mean_euclidean_arrays.
(** distances.py:294-324. *)
Definition mean_manhattan : cview FO -> oview FO -> result (dval RNum) := on_points mean_manhattan_arrays.
(** distances.py:464-502. *)
Definition keypoints_voting_distance (keypoint_distance_threshold detection_threshold : R)
    (c : cview FO) (o : oview FO) : result (dval RNum) :=
  match c with
  | VDet d => keypoints_voting_arrays keypoint_distance_threshold detection_threshold
                (d_points d) (estimate (v_obj o)) (d_scores d) (d_scores (v_last o))
  | VObj _ => Raise EAttributeError
  end.
(** distances.py:505-538. *)
Definition normalized_mean_euclidean_distance (height width : R) : cview FO -> oview FO -> result (dval RNum) :=
  on_points (normalized_mean_euclidean_arrays height width).

(** distances.py:387-419: the three tables. *)
Local Open Scope string_scope.
Definition scalar_functions : list (string * (cview FO -> oview FO -> result (dval RNum))) :=
  [("frobenius", frobenius); ("mean_manhattan", mean_manhattan); ("mean_euclidean", mean_euclidean)].
Definition vectorized_functions
    : list (string * (list (list RNum) -> list (list RNum) -> result (list (list (dval RNum))))) :=
  [("iou", iou); ("iou_opt", iou)].
Definition scipy_functions : list string :=
  ["braycurtis"; "canberra"; "chebyshev"; "cityblock"; "correlation"; "cosine"; "dice"; "euclidean"; "hamming";
   "jaccard"; "jensenshannon"; "kulczynski1"; "mahalanobis"; "matching"; "minkowski"; "rogerstanimoto";
   "russellrao"; "seuclidean"; "sokalmichener"; "sokalsneath"; "sqeuclidean"; "yule"].

Fixpoint lookup {A} (name : string) (table : list (string * A)) : option A :=
  match table with
  | [] => None
  | (n, v) :: rest => if String.eqb name n then Some v else lookup name rest
  end.

(** distances.py:425-461; [cdist metric] is [partial(scipy.spatial.distance.cdist, metric=metric)]
    (distances.py:229-231), not part of /repo. *)
Definition get_distance_by_name
    (cdist : string -> list (list RNum) -> list (list RNum) -> result (list (list (dval RNum))))
    (name : string) : result (distance FO) :=
  match lookup name scalar_functions with
  | Some f => Ret (ScalarDistance f)
  | None =>
    if existsb (String.eqb name) scipy_functions then Ret (VectorizedDistance (cdist name))
    else match lookup name vectorized_functions with
         | Some f => Ret (VectorizedDistance f)
         | None => Raise EValueError
         end
  end.
End Scalar.

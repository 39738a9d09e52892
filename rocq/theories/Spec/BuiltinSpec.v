(** What the built-in distances are supposed to compute. *)
From Coq Require Import Reals Bool Arith String.
From Coq Require Import List.
From Verif Require Import Model.Num Model.Base.
Import ListNotations.
Local Open Scope R_scope.

(** f 0 + ... + f (n-1). *)
Fixpoint total (n : nat) (f : nat -> R) : R := match n with O => 0 | S k => total k f + f k end.

(** An array of shape (n, d), and its entries. *)
Definition shaped (n d : nat) (a : points RNum) : Prop := length a = n /\ Forall (fun row => @length R row = d) a.
Definition entry (a : points RNum) (i j : nat) : R := nth j (nth i a []) 0.

(** A distance on arrays of shape (n, d) that is always a number and a metric. *)
Record metric (n d : nat) (f : points RNum -> points RNum -> result (dval RNum)) : Prop := {
  metric_value : forall a b, shaped n d a -> shaped n d b ->
    exists x : R, f a b = Ret (@DFin RNum x) /\ 0 <= x /\ (x = 0 <-> a = b);
  metric_symmetric : forall a b, shaped n d a -> shaped n d b -> f a b = f b a;
  metric_triangle : forall a b c (x y z : R), shaped n d a -> shaped n d b -> shaped n d c ->
    f a b = Ret (@DFin RNum x) -> f b c = Ret (@DFin RNum y) -> f a c = Ret (@DFin RNum z) -> z <= x + y
}.

(** Euclidean and Manhattan distance of point [i] of two arrays of points of dimension [d]. *)
Definition point_euclidean (d : nat) (a b : points RNum) (i : nat) : R :=
  sqrt (total d (fun j => (entry a i j - entry b i j) ^ 2)).
Definition point_manhattan (d : nat) (a b : points RNum) (i : nat) : R :=
  total d (fun j => Rabs (entry a i j - entry b i j)).

(** Boxes [x_min, y_min, x_max, y_max]. *)
Definition box (l t r b : R) : list R := [l; t; r; b].
Definition well_formed (v : list R) : Prop := exists l t r b, v = box l t r b /\ l < r /\ t < b.
Definition interior (v : list R) (x y : R) : Prop :=
  nth 0 v 0 < x < nth 2 v 0 /\ nth 1 v 0 < y < nth 3 v 0.
Definition area (v : list R) : R := (nth 2 v 0 - nth 0 v 0) * (nth 3 v 0 - nth 1 v 0).

(** Keypoint [i] of a detection (points [a], scores [sa]) and an object (estimate [b], scores [sb] of its last
    detection) match. *)
Definition keypoint_match (d : nat) (dist_thr score_thr : R) (a b : points RNum) (sa sb : list R) (i : nat) : Prop :=
  point_euclidean d a b i < dist_thr /\ score_thr < nth i sa 0 /\ score_thr < nth i sb 0.

(** [k] of the numbers below [n] satisfy [P]. *)
Definition how_many (n : nat) (P : nat -> Prop) (k : nat) : Prop :=
  exists l : list nat, NoDup l /\ (forall i, In i l <-> (i < n)%nat /\ P i) /\ length l = k.

(** All points of an (n, 2) array lie in the image. *)
Definition inside_image (height width : R) (a : points RNum) : Prop :=
  Forall (fun row => 0 <= nth 0 row 0 <= width /\ 0 <= nth 1 row 0 <= height) a.

(** The names documented in distances.py and docs/getting_started. *)
Local Open Scope string_scope.
Definition scalar_names : list string := ["frobenius"; "mean_euclidean"; "mean_manhattan"].
Definition vectorized_names : list string := ["iou"; "iou_opt"].
Definition scipy_names : list string :=
  ["braycurtis"; "canberra"; "chebyshev"; "cityblock"; "correlation"; "cosine"; "dice"; "euclidean"; "hamming";
   "jaccard"; "jensenshannon"; "kulczynski1"; "mahalanobis"; "matching"; "minkowski"; "rogerstanimoto";
   "russellrao"; "seuclidean"; "sokalmichener"; "sokalsneath"; "sqeuclidean"; "yule"].

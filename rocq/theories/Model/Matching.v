(** Distance matrices and [Tracker.match_dets_and_objs] (norfair/tracker.py:352-385). *)
From Coq Require Import ZArith Bool List Arith.
From Verif Require Import Model.Num.
Import ListNotations.

Section Matching.
Context {N : Num}.

(** A numpy float32 matrix, row-major: one row per candidate, one column per object. *)
Definition matrix := list (list (dval N)).

(** [ndarray.min()]: running minimum, keeps the first of equal values.
    (NaN entries are rejected by the caller, tracker.py:296-299.) *)
Definition dmin (x y : dval N) : dval N := if dltb y x then y else x.
Fixpoint list_min (x : dval N) (l : list (dval N)) : dval N :=
  match l with
  | [] => x
  | y :: l' => list_min (dmin x y) l'
  end.

(** [ndarray.argmin()]: index of the first minimum; [best]/[bi] best value and index so far. *)
Fixpoint argmin_from (best : dval N) (bi i : nat) (l : list (dval N)) : nat :=
  match l with
  | [] => bi
  | y :: l' => if dltb y best then argmin_from y i (S i) l' else argmin_from best bi (S i) l'
  end.
Definition argmin (l : list (dval N)) : nat :=
  match l with [] => 0 | x :: l' => argmin_from x 0 1 l' end.

(** [distance_matrix[i, j]]; entries outside the matrix do not occur (default NaN). *)
Definition entry (M : matrix) (i j : nat) : dval N := nth j (nth i M []) DNaN.

(** [distance_matrix.shape[1]]. *)
Definition ncols (M : matrix) : nat := match M with [] => 0 | r :: _ => length r end.

(** [l[i] = v] on a list, used for rows and columns. *)
Fixpoint set_nth {A} (i : nat) (v : A) (l : list A) {struct l} : list A :=
  match l, i with
  | [], _ => []
  | _ :: l', O => v :: l'
  | x :: l', S i' => x :: set_nth i' v l'
  end.

(** [distance_matrix[i, :] = v]  (tracker.py:379). *)
Definition fill_row (i : nat) (v : dval N) (M : matrix) : matrix :=
  set_nth i (map (fun _ => v) (nth i M [])) M.
(** [distance_matrix[:, j] = v]  (tracker.py:380). *)
Definition fill_col (j : nat) (v : dval N) (M : matrix) : matrix :=
  map (set_nth j v) M.

(** The while loop of tracker.py:371-383.  [fill] is the value of [distance_threshold + 1] once
    stored in the float32 matrix.  [None] means that the fuel ran out (the Python loop has none). *)
Fixpoint match_loop (fuel : nat) (fill thr : dval N) (M : matrix) (det_idxs obj_idxs : list nat)
  : option (list nat * list nat) :=
  match concat M with
  | [] => Some (det_idxs, obj_idxs)                              (* size = 0, never re-entered *)
  | x :: rest =>
    let current_min := list_min x rest in
    if dltb current_min thr then
      match fuel with
      | O => None
      | S fuel' =>
        let flattened_arg_min := argmin (concat M) in
        let det_idx := flattened_arg_min / ncols M in
        let obj_idx := flattened_arg_min mod ncols M in
        match_loop fuel' fill thr (fill_col obj_idx fill (fill_row det_idx fill M))
                   (det_idxs ++ [det_idx]) (obj_idxs ++ [obj_idx])
      end
    else Some (det_idxs, obj_idxs)
  end.

(** tracker.py:352-385.  [rnd] is the conversion to the matrix' dtype float32.  The fuel is the number
    of cells plus one, more than any terminating run needs (Proofs/MatchingProofs.v). *)
Definition match_dets_and_objs (rnd : dval N -> dval N) (thr : dval N) (M : matrix)
  : option (list nat * list nat) :=
  match_loop (S (length (concat M))) (rnd (dsucc thr)) thr M [] [].

End Matching.
Arguments matrix : clear implicits.

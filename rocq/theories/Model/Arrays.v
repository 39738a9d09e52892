(** norfair/utils.py: [validate_points], and the arrays held by a [Detection] (norfair/tracker.py).

    A numpy array is a view of a block of memory with a shape; two arrays may share a block.  All arrays here
    are views of a whole block in row-major order, which is what [np.array], [x[np.newaxis, ...]] of such an
    array and [x.copy()] give. *)
From Coq Require Import ZArith Arith List.
From Verif Require Import Model.Num Model.Base Model.Matching Model.Filter Model.Tracker.
Import ListNotations.

Record ndarray := MkArray { a_block : nat; a_shape : list nat }.
(** The two arrays of a [Detection], tracker.py:778 and 782. *)
Record det_arrays := MkArrays { da_points : ndarray; da_absolute : ndarray }.

(** utils.py:12-18 [validate_points]: an array of rank 1 becomes one row over the same memory. *)
Definition validate_points (p : ndarray) : result ndarray :=
  match a_shape p with
  | [n] => Ret (MkArray (a_block p) [1; n])
  | _ :: _ :: _ :: _ => Raise EValueError
  | _ => Ret p
  end.

(** tracker.py:491-492: [absolute_points.shape[1]] and then [shape[0]] of the first detection of an object. *)
Definition object_dims (p : ndarray) : result (nat * nat) :=
  match nth_error (a_shape p) 1 with
  | None => Raise EIndexError
  | Some d => match nth_error (a_shape p) 0 with None => Raise EIndexError | Some n => Ret (n, d) end
  end.

Section Memory.
Context {A : Type}.

(** The blocks of memory; a new array gets the next one. *)
Definition memory := list (list A).
Definition contents (m : memory) (p : ndarray) : list A := nth (a_block p) m [].
Definition alloc (shape : list nat) (data : list A) (m : memory) : memory * ndarray :=
  (m ++ [data], MkArray (length m) shape).
(** [p.flat[i] = v] *)
Definition assign (p : ndarray) (i : nat) (v : A) (m : memory) : memory :=
  set_nth (a_block p) (set_nth i v (contents m p)) m.

(** tracker.py:770-784, the arrays: [points] is the argument (or a view of it), [absolute_points] a copy. *)
Definition detection_arrays (p : ndarray) (m : memory) : result (memory * det_arrays) :=
  match validate_points p with
  | Raise e => Raise e
  | Ret q => let (m', c) := alloc (a_shape q) (contents m q) m in Ret (m', MkArrays q c)
  end.
End Memory.
Arguments memory : clear implicits.

(** The rows of an array of rank 2. *)
Fixpoint rows {A} (n d : nat) (l : list A) : list (list A) :=
  match n with 0 => [] | S n' => firstn d l :: rows n' d (skipn d l) end.
Definition read {A} (m : memory A) (p : ndarray) : list (list A) :=
  match a_shape p with [n; d] => rows n d (contents m p) | _ => [] end.

(** What the tracker sees of a [Detection] at the moment it looks. *)
Definition seen {N : Num} (m : memory N) (a : det_arrays) (scores : option (list N)) (data : list N) (lbl : label)
    (age : option Z) : detection N :=
  MkDet (read m (da_points a)) scores lbl (read m (da_absolute a)) age data.

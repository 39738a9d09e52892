(** C94: the arrays of a [Detection].  The user program is that of Spec/ArraySpec.v: arrays are made, written to and
    turned into detections in any order. *)
From Coq Require Import ZArith QArith Arith List.
Local Open Scope nat_scope.
From Verif Require Import Model.Num Model.Base Model.Filter Model.Tracker Model.Matching Model.Arrays Spec.ArraySpec Proofs.ArrayProofs.
Import ListNotations.

(** Whatever the user does afterwards, [points] shows what is in the array now, [absolute_points] what was in it when
    the detection was made; both have the shape of the array, one of rank 1 counting as one row. *)
Theorem C94_snapshot (A : Type) (before : list (step A)) (k : nat) (after : list (step A)) (p : ndarray) (sh : list nat) :
  nth_error (u_arrays (acts before start)) k = Some p ->
  match a_shape p with [n] => sh = [1; n]%nat | _ :: _ :: _ :: _ => False | _ => sh = a_shape p end ->
  let s1 := acts before start in let s2 := acts (before ++ NewDetection k :: after) start in
  exists d, nth_error (u_detections s2) (length (u_detections s1)) = Some d /\
    contents (u_memory s2) (da_points d) = values s2 k /\ contents (u_memory s2) (da_absolute d) = values s1 k /\
    a_shape (da_points d) = sh /\ a_shape (da_absolute d) = sh.
Proof. exact (snapshot before k after p sh). Qed.
Print Assumptions C94_snapshot.

(** Writing to an array changes that array at one place, and no other array, with any detections around. *)
Theorem C94_writes (A : Type) (before : list (step A)) (k i : nat) (v : A) (k' : nat) :
  let s := acts before start in
  values (act s (Write k i v)) k' = if k' =? k then set_nth i v (values s k) else values s k'.
Proof. exact (values_write _ k i v k' (inv_acts before _ inv_start)). Qed.
Print Assumptions C94_writes.

(** The constructor accepts exactly the ranks up to 2 and raises ValueError for the others. *)
Theorem C94_rank (A : Type) (p : ndarray) (m : memory A) :
  ((exists m' d, detection_arrays p m = Ret (m', d)) <-> length (a_shape p) <= 2) /\
  (2 < length (a_shape p) -> detection_arrays p m = Raise EValueError).
Proof. exact (conj (constructor p m) (constructor_raises p m)). Qed.
Print Assumptions C94_rank.

(** The first object made of a detection knows the numbers of points and of coordinates; for an array of rank 0, which
    the constructor accepted, it raises IndexError. *)
Theorem C94_dims (A : Type) (p : ndarray) (m m' : memory A) (d : det_arrays) : detection_arrays p m = Ret (m', d) ->
  object_dims (da_absolute d) =
    match a_shape p with [] => Raise EIndexError | [n] => Ret (1, n) | n :: d :: _ => Ret (n, d) end.
Proof. exact (dims p m m' d). Qed.
Print Assumptions C94_dims.

(** Nothing written in between, the tracker sees the detection of the model of the tracker, with the points of which the
    array consists row by row. *)
Theorem C94_seen (N : Num) (m m' : memory N) (p : ndarray) (pts : points N) (d : nat) (a : det_arrays) scores data lbl :
  a_block p < length m -> contents m p = concat pts -> Forall (fun row => length row = d) pts ->
  a_shape p = [length pts; d] \/ (a_shape p = [d] /\ length pts = 1%nat) -> detection_arrays p m = Ret (m', a) ->
  seen m' a scores data lbl None = new_detection pts scores data lbl.
Proof. exact (seen_points m m' p pts d a scores data lbl). Qed.
Print Assumptions C94_seen.

(** That a detection keeps the points it was made with is refuted: one buffer filled again and again makes all
    detections show its last contents as [points], though their [absolute_points] differ. *)
Theorem C94_refuted_reuse : exists (l : list (step Q)) d e,
  u_detections (acts l start) = [d; e] /\
  let m := u_memory (acts l start) in
  read m (da_points d) = read m (da_points e) /\ read m (da_absolute d) <> read m (da_absolute e) /\
  read m (da_points d) <> read m (da_absolute d).
Proof. exact reuse_shared. Qed.
Print Assumptions C94_refuted_reuse.

Example ex94_reuse : let s := acts reuse start in
  map (fun d => (read (u_memory s) (da_points d), read (u_memory s) (da_absolute d))) (u_detections s) =
  [([[5; 6]], [[1; 2]]); ([[5; 6]], [[5; 6]])]%Q /\ values s 0 = [5; 6]%Q.
Proof. vm_compute. split; reflexivity. Qed.
(** An array of rank 1, one of two points and one of rank 3. *)
Example ex94_shapes :
  let s := acts [NewArray [2%nat] [1; 2]; NewArray [2; 2]%nat [1; 2; 3; 4]; NewArray [2; 1; 2]%nat [1; 2; 3; 4];
                 NewDetection 0; NewDetection 1; NewDetection 2]%Q start in
  map (fun d => (a_shape (da_points d), read (u_memory s) (da_absolute d))) (u_detections s) =
  [([1; 2]%nat, [[1; 2]]); ([2; 2]%nat, [[1; 2]; [3; 4]])]%Q.
Proof. vm_compute. reflexivity. Qed.
Example ex94_scalar : exists m d, detection_arrays (A := Q) (MkArray 0 []) [[7]%Q] = Ret (m, d) /\ object_dims (da_absolute d) = Raise EIndexError.
Proof. do 2 eexists. split; reflexivity. Qed.
Example ex94_seen : exists m' a, detection_arrays (MkArray 0 [2; 2]%nat) [[1; 2; 3; 4]]%Q = Ret (m', a) /\
  contents [[1; 2; 3; 4]]%Q (MkArray 0 [2; 2]%nat) = concat [[1; 2]; [3; 4]]%Q /\ 0 < length [[1; 2; 3; 4]]%Q /\
  Forall (fun row => length row = 2%nat) [[1; 2]; [3; 4]]%Q.
Proof. do 2 eexists. repeat split; repeat constructor. Qed.

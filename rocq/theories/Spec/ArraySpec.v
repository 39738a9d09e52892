(** The program of a user who makes arrays, writes into them and makes detections of them. *)
From Coq Require Import Arith List.
From Verif Require Import Model.Base Model.Arrays.
Import ListNotations.

Section User.
Context {A : Type}.

Inductive step :=
| NewArray (shape : list nat) (data : list A)      (* x = np.array(...) *)
| Write (k i : nat) (v : A)                        (* the k-th array: x.flat[i] = v *)
| NewDetection (k : nat).                          (* Detection(points=x) *)

Record user := MkUser { u_memory : memory A; u_arrays : list ndarray; u_detections : list det_arrays }.
Definition start : user := MkUser [] [] [].

(** One step; a step with an unknown array does nothing, one that raises neither. *)
Definition act (s : user) (x : step) : user :=
  match x with
  | NewArray shape data =>
      let (m, p) := alloc shape data (u_memory s) in MkUser m (u_arrays s ++ [p]) (u_detections s)
  | Write k i v =>
      match nth_error (u_arrays s) k with
      | Some p => MkUser (assign p i v (u_memory s)) (u_arrays s) (u_detections s)
      | None => s
      end
  | NewDetection k =>
      match nth_error (u_arrays s) k with
      | Some p =>
          match detection_arrays p (u_memory s) with
          | Ret (m, d) => MkUser m (u_arrays s) (u_detections s ++ [d])
          | Raise _ => s
          end
      | None => s
      end
  end.
Definition acts (l : list step) (s : user) : user := fold_left act l s.

(** The values in the [k]-th array of the user. *)
Definition values (s : user) (k : nat) : list A :=
  match nth_error (u_arrays s) k with Some p => contents (u_memory s) p | None => [] end.
End User.
Arguments step : clear implicits.
Arguments user : clear implicits.

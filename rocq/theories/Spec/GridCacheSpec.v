(** What is said about the cache of the absolute grid. *)
From Coq Require Import ZArith Bool Arith List.
From Verif Require Import Model.Base Model.GridCache.
Import ListNotations.

Section S.
Context {Grid : Type} (compute : grid_key -> result Grid).

(** A transformation that does not write into the array it is given. *)
Definition leaves_argument (t : option (transformation Grid)) : Prop :=
  match t with None => True | Some f => forall g, fst (f g) = g end.
(** The positions when the grid is computed in every call. *)
Definition fresh_positions (k : grid_key) (t : option (transformation Grid)) : result Grid :=
  match compute k with
  | Raise e => Raise e
  | Ret g => match t with None => Ret g | Some f => snd (f g) end
  end.
Definition computable (k : grid_key) : bool := match compute k with Ret _ => true | Raise _ => false end.
End S.

Definition key_eq_dec (a b : grid_key) : {a = b} + {a <> b}.
Proof. decide equality; (apply Bool.bool_dec || apply Z.eq_dec || apply Nat.eq_dec). Defined.
(** The different keys of a list, in the order of their last uses, the last first. *)
Fixpoint distinct (keys : list grid_key) : list grid_key :=
  match keys with [] => [] | k :: keys' => k :: remove key_eq_dec k (distinct keys') end.
Definition last_used (keys : list grid_key) : list grid_key := distinct (rev keys).

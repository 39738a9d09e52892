(** norfair/drawing/absolute_grid.py:11 and 86-93: the cache of [_get_grid] ([functools.lru_cache(maxsize=4)]) and its use by
    [draw_absolute_grid].

    The cache hands out the array it holds, not a copy: whoever writes into the array changes what later calls get. *)
From Coq Require Import ZArith Bool Arith List.
From Verif Require Import Model.Base.
Import ListNotations.

(** The arguments of [_get_grid], absolute_grid.py:12. *)
Record grid_key := MkKey { gk_size : nat; gk_w : Z; gk_h : Z; gk_polar : bool }.
Definition key_eqb (a b : grid_key) : bool :=
  Nat.eqb (gk_size a) (gk_size b) && Z.eqb (gk_w a) (gk_w b) && Z.eqb (gk_h a) (gk_h b) && Bool.eqb (gk_polar a) (gk_polar b).

Section Cache.
Context {Grid : Type}.
(** [_get_grid] without the cache. *)
Context (compute : grid_key -> result Grid).

(** The entries, the one used last first, with what is now in their arrays. *)
Definition cache := list (grid_key * Grid).
Fixpoint cache_find (k : grid_key) (c : cache) : option Grid :=
  match c with [] => None | (k', g) :: c' => if key_eqb k k' then Some g else cache_find k c' end.
Definition cache_drop (k : grid_key) (c : cache) : cache := filter (fun e => negb (key_eqb k (fst e))) c.
(** [functools.lru_cache]: a hit becomes the entry used last; a miss is computed and the entry used longest ago makes room;
    an exception is not stored. *)
Definition cached (maxsize : nat) (k : grid_key) (c : cache) : cache * result Grid :=
  match cache_find k c with
  | Some g => ((k, g) :: cache_drop k c, Ret g)
  | None => match compute k with Raise e => (c, Raise e) | Ret g => (firstn maxsize ((k, g) :: c), Ret g) end
  end.

(** [coord_transformations.abs_to_rel(points)]: what is in [points] afterwards, and the positions returned.  (The
    transformations of camera_motion.py:71-72 and 149-157 return new arrays; a user's may not.) *)
Definition transformation := Grid -> Grid * result Grid.
(** absolute_grid.py:86-93: the positions in the frame, of which the visible ones are drawn. *)
Definition grid_positions (k : grid_key) (t : option transformation) (c : cache) : cache * result Grid :=
  match cached 4 k c with
  | (c, Raise e) => (c, Raise e)
  | (c, Ret g) =>
    match t with
    | None => (c, Ret g)
    | Some f => let (g', r) := f g in (map (fun e => if key_eqb k (fst e) then (fst e, g') else e) c, r)
    end
  end.
(** Calls one after the other, from whatever parts of the program: the cache and what the calls return. *)
Fixpoint grid_calls (calls : list (grid_key * option transformation)) (c : cache) : cache * list (result Grid) :=
  match calls with
  | [] => (c, [])
  | (k, t) :: calls' =>
    let (c, r) := grid_positions k t c in
    let (c, rs) := grid_calls calls' c in (c, r :: rs)
  end.
End Cache.
Arguments cache : clear implicits.
Arguments transformation : clear implicits.

(** C112: the absolute grid is computed once and used again. *)
From Coq Require Import ZArith Reals Bool Arith List Lia Lra.
From Verif Require Import Model.Base Model.Grid Model.GridCache Spec.GridCacheSpec Proofs.GridCacheProofs.
Import ListNotations.
Local Open Scope nat_scope.

(** However many calls of [draw_absolute_grid] are made, for whatever frame sizes and grids and with whatever
    transformations that do not write into the array they are given: every call gets the positions (or the exception) it
    would get if the grid were computed in each call.  This is stated for any function in the place of
    [_get_grid] .. *)
Theorem C112_cached (Grid : Type) (compute : grid_key -> result Grid) calls :
  Forall (fun kt => leaves_argument (snd kt)) calls ->
  snd (grid_calls compute calls []) = map (fun kt => fresh_positions compute (fst kt) (snd kt)) calls.
Proof. exact (calls_fresh compute calls). Qed.
Print Assumptions C112_cached.
(** .. and whatever the transformations do, the grids kept are those of the four keys used last, of the calls that did not
    fail. *)
Theorem C112_kept (Grid : Type) (compute : grid_key -> result Grid) calls :
  map fst (fst (grid_calls compute calls [])) = firstn 4 (last_used (filter (computable compute) (map fst calls))) /\
  length (fst (grid_calls compute calls [])) <= 4.
Proof. exact (conj (cache_keys compute calls) (cache_small compute calls)). Qed.
Print Assumptions C112_kept.

(** The grid of the library. *)
Definition library_grid (k : grid_key) : result (list (R * R)) := get_grid (gk_size k) (gk_w k) (gk_h k) (gk_polar k).
(** A transformation that works in place (e.g. [points += v; return points]) moves the grid of all later calls: in two calls
    with the same transformation the second one gets other positions than the first. *)
Theorem C112_in_place_refuted : exists k (f : transformation (list (R * R))) a b,
  (forall g, snd (f g) = Ret (fst (f g))) /\
  snd (grid_calls library_grid [(k, Some f); (k, Some f)] []) = [Ret a; Ret b] /\ a <> b /\
  fresh_positions library_grid k (Some f) = Ret a.
Proof.
  pose (f := (fun g => let g' := map (fun p => (fst p + 1, snd p)%R) g in (g', Ret g')) : transformation (list (R * R))).
  assert (G : exists x y l, get_grid 1 640 480 false = Ret ((x, y) :: l)).
  { unfold get_grid. cbv zeta. unfold mgrid.
    assert (E : ceilR ((PI / 2 - (- PI / 2 + PI / INR 1 / 2)) / (PI / INR 1)) = 1%Z).
    { replace ((PI / 2 - (- PI / 2 + PI / INR 1 / 2)) / (PI / INR 1))%R with (1 / 2)%R by (cbn; field; pose proof PI_RGT_0; lra).
      unfold ceilR. rewrite <- (tech_up (- (1 / 2)) 0); [reflexivity|lra|lra]. }
    rewrite E. cbn [Z.to_nat Pos.to_nat Pos.iter_op seq map flat_map app]. do 3 eexists. reflexivity. }
  destruct G as (x & y & l & G). exists (MkKey 1 640 480 false), f.
  exists ((x + 1, y)%R :: map (fun p => (fst p + 1, snd p)%R) l), ((x + 1 + 1, y)%R :: map (fun p => (fst p + 1, snd p)%R) (map (fun p => (fst p + 1, snd p)%R) l)).
  split; [reflexivity|]. split; [|split].
  - unfold grid_calls, grid_positions, cached, cache_find, library_grid. cbn [gk_size gk_w gk_h gk_polar]. rewrite G. reflexivity.
  - intros Heq. injection Heq as Hx _. lra.
  - unfold fresh_positions, library_grid. cbn [gk_size gk_w gk_h gk_polar]. rewrite G. reflexivity.
Qed.
Print Assumptions C112_in_place_refuted.

(** ** A concrete case: five sizes of frames, one used again after it was dropped, one before, and a call that fails. *)
Definition ex112_compute (k : grid_key) : result (list Z) := match gk_size k with O => Raise EZeroDivisionError | S _ => Ret [gk_w k; gk_h k] end.
Definition ex112_key (w : Z) : grid_key := MkKey 20 w 10 false.
Definition ex112_move : transformation (list Z) := fun g => (g, Ret (map (Z.add 1) g)).
Definition ex112_calls : list (grid_key * option (transformation (list Z))) :=
  [(ex112_key 1, None); (ex112_key 2, Some ex112_move); (ex112_key 1, Some ex112_move); (MkKey 0 1 10 false, None); (ex112_key 3, None);
   (ex112_key 4, None); (ex112_key 5, None); (ex112_key 2, None)].
Example ex112_hyps : Forall (fun kt => leaves_argument (snd kt)) ex112_calls.
Proof. repeat constructor. Qed.
Example ex112_outcome :
  snd (grid_calls ex112_compute ex112_calls []) =
    [Ret [1; 10]; Ret [3; 11]; Ret [2; 11]; Raise EZeroDivisionError; Ret [3; 10]; Ret [4; 10]; Ret [5; 10]; Ret [2; 10]]%Z /\
  map (fun e => gk_w (fst e)) (fst (grid_calls ex112_compute ex112_calls [])) = [2; 5; 4; 3]%Z.
Proof. split; vm_compute; reflexivity. Qed.

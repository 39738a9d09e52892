(** Vocabulary for several trackers in one process. *)
From Coq Require Import ZArith List Arith Bool.
From Verif Require Import Model.Num Model.Base Model.Filter Model.Tracker.
Import ListNotations.

Section S.
Context {N : Num} {FO : filter_ops N}.

(** An object without its global_id. *)
Definition hide_gid (o : tobj FO) : tobj FO := set_ids (o_id o) None o.
Definition hide_view (v : oview FO) : oview FO := MkOView (hide_gid (v_obj v)) (v_last v) (v_past v).
Definition hide_cand (c : cview FO) : cview FO := match c with VDet d => VDet d | VObj v => VObj (hide_view v) end.
(** A distance function that does not read global_id. *)
Definition ignores_gid (f : cview FO -> oview FO -> result (dval N)) : Prop :=
  forall c o, f c o = f (hide_cand c) (hide_view o).
Record blind_to_gid (c : tconf FO) : Prop := {
  bg_distance : forall f, tc_distance c = ScalarDistance f -> ignores_gid f;
  bg_reid : forall f, tc_reid_distance c = Some f -> ignores_gid f
}.

(** Every detection is given to one tracker only, [owner r]. *)
Definition to_owner (owner : nat -> nat) (o : op N) : Prop :=
  match o with OpUpdate k (Some dets) _ _ => Forall (fun r => owner r = k) dets | _ => True end.
(** The part of the program that concerns tracker [k]. *)
Definition concerns (owner : nat -> nat) (k : nat) (o : op N) : bool :=
  match o with OpDet r _ => Nat.eqb (owner r) k | OpUpdate j _ _ _ => Nat.eqb j k end.

(** What the calls of tracker [k] return or raise. *)
Fixpoint results (conf : nat -> tconf FO) (k : nat) (w : world FO) (ops : list (op N)) : list (result (list nat)) :=
  match ops with
  | [] => []
  | o :: ops' =>
    let (w', r) := exec conf w o in
    match o with
    | OpUpdate j _ _ _ => if Nat.eqb j k then r :: results conf k w' ops' else results conf k w' ops'
    | OpDet _ _ => results conf k w' ops'
    end
  end.

(** Tracker [k] and its detections are in the same state in two processes, apart from the global ids. *)
Record same_tracker (owner : nat -> nat) (k : nat) (w w' : world FO) : Prop := {
  sa_tracked : p_tracked (w_trackers w k) = p_tracked (w_trackers w' k);
  sa_total : p_count (w_trackers w k) = p_count (w_trackers w' k);
  sa_created : p_icount (w_trackers w k) = p_icount (w_trackers w' k);
  sa_objects : forall i, 1 <= i <= p_icount (w_trackers w k) ->
     hide_gid (p_store (w_trackers w k) i) = hide_gid (p_store (w_trackers w' k) i);
  sa_detections : forall r, owner r = k -> w_heap w r = w_heap w' r
}.
End S.

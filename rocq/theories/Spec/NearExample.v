(** Examples for C106: a filter with a constant error, and a distance with an error at one place. *)
From Coq Require Import ZArith QArith Lqa List Bool Arith Lia.
From Verif Require Import Model.Num Model.Base Model.Matching Model.Filter Model.Tracker Spec.MatchingSpec Spec.CallSpec Spec.ExampleVideo Spec.ExampleTracker
  Spec.LabelSpec Spec.UnitSpec Spec.OrderSpec Spec.NearSpec.
Import ListNotations.
Local Open Scope nat_scope.

(** NoFilter that gets every detection wrong by [e]. *)
Definition biased (e : Q) : filter_ops QNum :=
  MkFilter QNum (nofilter QNum) (fun p => nf_create (map (map (fun x : QNum => (x + (e : QNum))%n)) p)) nf_predict
    (fun f z h => nf_update f (map (fun x : QNum => (x + (e : QNum))%n) z) h) nf_x (fun f x => MkNoFilter (nf_dim_z f) x).
Definition close (e : Q) (x y : Q) : Prop := (x - y <= e /\ y - x <= e)%Q.
Definition close_filters (e : Q) (a b : nofilter QNum) : Prop := nf_dim_z b = nf_dim_z a /\ Forall2 (close e) (nf_x a) (nf_x b).

(** Distance of the first coordinates, |x - y|, of points in absolute coordinates. *)
Definition first_of (l : list Q) : Q := match l with x :: _ => x | [] => 0%Q end.
Definition line_distance {FO : filter_ops QNum} (c : cview FO) (o : oview FO) : result (dval QNum) :=
  let z := match c with VDet d => ex_point (d_absolute_points d) | VObj o' => first_of (f_x FO (o_filter (v_obj o'))) end in
  Ret (DFin (ex_abs (Qred (z - first_of (f_x FO (o_filter (v_obj o))))) : QNum)).
(** The same with an error of [e] for objects left of 1. *)
Definition line_distance_off {FO : filter_ops QNum} (e : Q) (c : cview FO) (o : oview FO) : result (dval QNum) :=
  match line_distance c o with
  | Ret (DFin d) => Ret (DFin (if Qltb (first_of (f_x FO (o_filter (v_obj o)))) 1 then ((d : QNum) + (e : QNum))%n else d))
  | r => r
  end.
Definition line_tracker {FO : filter_ops QNum} (f : cview FO -> oview FO -> result (dval QNum)) : tconf FO :=
  MkTconf (ScalarDistance f) (DFin (6%Q : QNum)) 3 0 3 (0%Q : QNum) 2 None (DFin (0%Q : QNum)) None (fun d => d).

(** Specification of C08: pairwise distances computed one by one or all at once. *)
From Coq Require Import ZArith Bool Arith String List.
From Verif Require Import Model.Num Model.Base Model.Matching Model.Filter Model.Tracker.
Import ListNotations.

Section S.
Context {N : Num} {FO : filter_ops N}.

(** [f] computes the distance [g] of every row of the first stack to every row of the second. *)
Definition pointwise (f : list (list N) -> list (list N) -> result (list (list (dval N))))
    (g : list N -> list N -> dval N) : Prop :=
  forall cs os, f cs os = Ret (map (fun c => map (g c) os) cs).

(** The same distance as a scalar distance function: of the coordinates of the detection (or the estimate of
    the object) and the estimate of the object. *)
Definition coords (v : cview FO) : list N :=
  match v with VDet d => concat (d_points d) | VObj w => concat (estimate (v_obj w)) end.
Definition scalar_of (g : list N -> list N -> dval N) (v : cview FO) (w : oview FO) : result (dval N) :=
  Ret (g (coords v) (concat (estimate (v_obj w)))).

(** Objects, and candidates, with the same label have equally many coordinates. *)
Definition uniform (s : st FO) (objects : list nat) (candidates : list cand) : Prop :=
  (forall i j, In i objects -> In j objects -> obj_label s i = obj_label s j ->
     List.length (coords (VObj (view_obj s i))) = List.length (coords (VObj (view_obj s j)))) /\
  (forall a b, In a candidates -> In b candidates -> cand_label s a = cand_label s b ->
     List.length (coords (view_cand s a)) = List.length (coords (view_cand s b))).

(** Labels of one kind: all None, all ints or all strings. *)
Definition same_kind (a b : label) : Prop :=
  match a, b with LNone, LNone => True | LInt _, LInt _ => True | LStr _, LStr _ => True | _, _ => False end.
Definition all_labels (s : st FO) (objects : list nat) (candidates : list cand) : list label :=
  map (obj_label s) objects ++ map (cand_label s) candidates.
Definition one_kind (s : st FO) (objects : list nat) (candidates : list cand) : Prop :=
  forall a b, In a (all_labels s objects candidates) -> In b (all_labels s objects candidates) -> same_kind a b.

(** The matrix the user expects. *)
Definition expected_matrix (rnd : dval N -> dval N) (g : list N -> list N -> dval N) (s : st FO)
    (objects : list nat) (candidates : list cand) : list (list (dval N)) :=
  map (fun c => map (fun i => if label_eqb (cand_label s c) (obj_label s i)
                              then rnd (g (coords (view_cand s c)) (concat (estimate (s_store s i)))) else DPInf)
                    objects) candidates.
End S.

(** The matrix of a vectorized distance for labels of any kinds: labels count as equal if they are printed alike. *)
Section Printed.
Context {N : Num} {FO : filter_ops N}.
Definition uniform_printed (s : st FO) (objects : list nat) (candidates : list cand) : Prop :=
  (forall i j, In i objects -> In j objects -> label_str (obj_label s i) = label_str (obj_label s j) ->
     List.length (coords (VObj (view_obj s i))) = List.length (coords (VObj (view_obj s j)))) /\
  (forall a b, In a candidates -> In b candidates -> label_str (cand_label s a) = label_str (cand_label s b) ->
     List.length (coords (view_cand s a)) = List.length (coords (view_cand s b))).
Definition printed_matrix (rnd : dval N -> dval N) (g : list N -> list N -> dval N) (s : st FO)
    (objects : list nat) (candidates : list cand) : list (list (dval N)) :=
  map (fun c => map (fun i => if String.eqb (label_str (cand_label s c)) (label_str (obj_label s i))
                              then rnd (g (coords (view_cand s c)) (concat (estimate (s_store s i)))) else DPInf)
                    objects) candidates.
End Printed.

(** C115: what AbsolutePaths leaves in the frame it is given. *)
From Coq Require Import ZArith QArith Bool Arith List.
From Verif Require Import Model.Num Model.Base Model.Tracker Model.CameraMotion Model.Images Model.Drawing Model.PathsFrames
  Spec.ImageSpec Spec.DrawingSpec Spec.PathsFramesSpec Proofs.PathsFramesProofs.
Import ListNotations.
Local Open Scope nat_scope.

(** After any calls: the first object [o] with a live point that was drawn before ends the drawing into the array of the caller.  That array
    gets the circles of the objects up to [o] and nothing else; the array returned gets all steps (which these are is C71). *)
Theorem C115_given : forall (Img : Type) (circle : position -> Img -> Img) (blend : list (position * position) -> Q -> Img -> Img)
    n m calls t objs g os1 o os2,
  Forall (good_call m) calls -> good_call m (Some t, objs) -> NoDup (map po_id (filter alive objs)) ->
  0 < n -> filter alive objs = os1 ++ o :: os2 -> (forall o', In o' os1 -> trail (po_id o') calls = []) -> trail (po_id o) calls <> [] ->
  exists h h' st, absolute_run n calls [] = (h, Ret tt) /\ absolute_draw n (Some t) objs h = (h', (st, Ret tt)) /\
  fst (into_arrays circle blend st g None) =
    fold_left (fun im q => circle (int_point q) im) (flat_map (fun o => ct_abs_to_rel t (po_points o)) (os1 ++ [o])) g /\
  snd (into_arrays circle blend st g None) = fold_left (one_step circle blend) st g.
Proof. exact @given_afterwards. Qed.
Print Assumptions C115_given.

(** If no object with a live point was drawn before, the array of the caller is returned. *)
Theorem C115_first : forall (Img : Type) (circle : position -> Img -> Img) (blend : list (position * position) -> Q -> Img -> Img) n m calls t objs g,
  Forall (good_call m) calls -> good_call m (Some t, objs) -> NoDup (map po_id (filter alive objs)) ->
  (forall o, In o objs -> alive o = true -> trail (po_id o) calls = []) ->
  exists h h' st, absolute_run n calls [] = (h, Ret tt) /\ absolute_draw n (Some t) objs h = (h', (st, Ret tt)) /\
  fst (into_arrays circle blend st g None) = snd (into_arrays circle blend st g None).
Proof. exact @given_first. Qed.
Print Assumptions C115_first.

(** A new object, and two that were drawn before. *)
Example C115_case : Forall (good_call 1) walk_calls /\ good_call 1 (Some walk_still, walk_now) /\ NoDup (map po_id (filter alive walk_now)) /\
  trail (Some 3) walk_calls = [] /\ trail (Some 1) walk_calls <> [].
Proof. exact walk_good. Qed.

(** The array of the caller is neither left alone nor does it show what is returned: here it has the circles of the first two of three
    objects. *)
Theorem C115_in_place_refuted : exists n m calls t objs h h' st,
  Forall (good_call m) calls /\ good_call m (Some t, objs) /\ NoDup (map po_id (filter alive objs)) /\
  absolute_run n calls [] = (h, Ret tt) /\ absolute_draw n (Some t) objs h = (h', (st, Ret tt)) /\
  let out := into_arrays tell_circle tell_blend st [] None in
  fst out = [PCircle [90; 0]; PCircle [2; 0]]%Z /\ length (snd out) = 5 /\ In (PCircle [51; 0]%Z) (snd out).
Proof. exact walk_differs. Qed.
Print Assumptions C115_in_place_refuted.

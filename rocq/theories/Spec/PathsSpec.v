(** Vocabulary for C114: what Paths draws for tracked objects. *)
From Coq Require Import ZArith QArith Bool Arith List.
From Verif Require Import Model.Num Model.Base Model.Filter Model.Tracker Model.Images Model.Color Model.Drawing Model.PathsDrawing Spec.DrawingSpec.
Import ListNotations.
Local Open Scope nat_scope.

Section S.
Context {FO : filter_ops QNum}.
(** One call of draw: the frame and the tracked objects. *)
Definition take := (canvas * list (tobj FO))%type.
(** The results of the calls, all with frames of the given height. *)
Fixpoint paths_run (disc : Z -> Z -> position -> Z -> Z -> bool) (pal : palette) (height : Z) (p : paths) (video : list take) : list (result canvas) :=
  match video with
  | [] => []
  | (frame, os) :: video' => let a := paths_step disc pal p height frame os in snd a :: paths_run disc pal height (fst a) video'
  end.
(** The whole part of the mean of the points, coordinate by coordinate. *)
Definition center_of (ps : points QNum) (c : position) : Prop :=
  length c = length (hd [] ps) /\
  forall k v, nth_error c k = Some v -> exists m : Q,
    (m * inject_Z (Z.of_nat (length ps)) == fold_right Qplus 0 (map (fun r => nth k r 0) ps))%Q /\
    ((0 <= m)%Q -> inject_Z v <= m < inject_Z v + 1)%Q /\ ((m < 0)%Q -> inject_Z v - 1 < m <= inject_Z v)%Q.
(** The color of the drawer, or that of the id in the palette. *)
Definition color_of (pal : palette) (color : option bgr) (o : tobj FO) (c : bgr) : Prop :=
  match color with Some c' => c = c' | None => choose_color pal (hash_id (o_id o)) = Ret c end.
(** Radius and thickness: as given, or 0.7 hundredths and a seventh of a hundredth of the height, at least 1. *)
Definition whole_part (q : Q) (v : Z) : Prop := ((1 <= q)%Q -> inject_Z v <= q < inject_Z v + 1)%Q /\ ((q < 1)%Q -> v = 1%Z).
Definition radius_of (given : option Z) (height : Z) (v : Z) : Prop :=
  match given with Some r => v = r | None => whole_part (inject_Z height * 7 / 1000) v end.
Definition thickness_of (given : option Z) (height : Z) (v : Z) : Prop :=
  match given with Some t => v = t | None => whole_part (inject_Z height / 700) v end.
End S.
Arguments take FO : clear implicits.

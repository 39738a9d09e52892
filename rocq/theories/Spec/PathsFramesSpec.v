(** Vocabulary for C115: the picture after a step of AbsolutePaths. *)
From Coq Require Import ZArith QArith List.
From Verif Require Import Model.Drawing.
Import ListNotations.

Definition one_step {Img : Type} (circle : position -> Img -> Img) (blend : list (position * position) -> Q -> Img -> Img) (im : Img) (s : path_step) : Img :=
  match s with PCircle c => circle c im | POverlay l a => blend l a im end.
(** Pictures that tell what was drawn into them, first to last. *)
Definition told := list path_step.
Definition tell_circle (c : position) (im : told) : told := im ++ [PCircle c].
Definition tell_blend (l : list (position * position)) (a : Q) (im : told) : told := im ++ [POverlay l a].

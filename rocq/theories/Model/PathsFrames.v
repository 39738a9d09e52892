(** norfair/drawing/path.py:187-232 [AbsolutePaths.draw]: into which array each step draws.  The circles of lines 205-212 are
    painted into the array that [frame] names; the blend of line 229 makes a new array, which [frame] names from then on.
    SIMPLIFICATION: colors, radius and thickness are left out. *)
From Coq Require Import ZArith QArith List.
From Verif Require Import Model.Drawing.
Import ListNotations.

Section F.
Context {Img : Type}.
(** cv2.circle (in place), and lines on a copy blended with the array (a new array). *)
Context (circle : position -> Img -> Img) (blend : list (position * position) -> Q -> Img -> Img).
(** [given] is the array of the caller; [current] is the array [frame] names, if it is another one.  Result: the array of the
    caller afterwards, and the array returned. *)
Fixpoint into_arrays (steps : list path_step) (given : Img) (current : option Img) : Img * Img :=
  match steps with
  | [] => (given, match current with None => given | Some f => f end)
  | PCircle c :: steps' =>
    match current with
    | None => into_arrays steps' (circle c given) None
    | Some f => into_arrays steps' given (Some (circle c f))
    end
  | POverlay lines alpha :: steps' => into_arrays steps' given (Some (blend lines alpha (match current with None => given | Some f => f end)))
  end.
End F.

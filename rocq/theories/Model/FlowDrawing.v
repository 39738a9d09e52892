(** norfair/camera_motion.py:342-354,368-441: [MotionEstimator] with [draw_flow], which paints on the frame it is given. *)
From Coq Require Import ZArith QArith Bool Arith List.
From Verif Require Import Model.Num Model.Base Model.Tracker Model.CameraMotion.
Import ListNotations.
Local Open Scope nat_scope.

Section Flow.
Context {N : Num}.

(** One call of OpenCV's drawing functions: [cv2.line(frame, a, b, color, thickness)] or
    [cv2.circle(frame, centre, radius, color, -1)]. *)
Inductive stroke :=
| Line (a b : list Z) (color : list Z) (thickness : Z)
| Disc (centre : list Z) (radius : Z) (color : list Z).

(** The colour of the flow: camera_motion.py:351-354 (colours of OpenCV are BGR). *)
Definition flow_color (draw_flow : bool) (given : option (list Z)) : option (list Z) :=
  if draw_flow && match given with None => true | Some _ => false end then Some [0; 0; 100]%Z else given.

(** [paint frame s] carries out a call on the array [frame]: its new content, and whether the call returned.  An exception is
    raised e.g. by an array that is not contiguous. *)
Fixpoint flow_strokes {frame} (to_int : N -> Z) (paint : frame -> stroke -> frame * result unit) (c : list Z)
    (pairs : list (list N * list N)) (f : frame) : frame * result unit :=
  match pairs with
  | [] => (f, Ret tt)
  | (curr, prev) :: pairs' =>                                                   (* 414-418 *)
    let a := map to_int curr in
    let b := map to_int prev in
    match paint f (Line a b c 2%Z) with
    | (f, Raise e) => (f, Raise e)
    | (f, Ret _) =>
      match paint f (Disc a 3%Z c) with
      | (f, Raise e) => (f, Raise e)
      | (f, Ret _) => flow_strokes to_int paint c pairs' f
      end
    end
  end.

(** camera_motion.py:368-441 [update]: the estimator, the content of the frame afterwards, and the result.  The exceptions of 402-420 are logged: what was assigned before them is kept. *)
Definition estimator_update_drawing {G T} (V : vision N) (to_int : N -> Z) (paint : frame_t V -> stroke -> frame_t V * result unit)
    (draw_flow : bool) (given_color : option (list Z)) (call : G -> option (points N) -> option (points N) -> G * result (bool * option T))
    (s : estimator V G) (frame : frame_t V) (mask : option (mask_t V)) : estimator V G * frame_t V * result (option T) :=
  match to_gray V frame with                                                    (* 396 *)
  | Raise e => (s, frame, Raise e)
  | Ret gray_next =>
    let '(gray_prvs, prev_mask) :=                                              (* 397-399 *)
      match me_gray_prvs s with None => (gray_next, mask) | Some g => (g, me_prev_mask s) end in
    let '(curr_pts, prev_pts, frame) :=                                         (* 401-420 *)
      match sparse_flow V gray_next gray_prvs (me_prev_pts s) prev_mask with
      | Raise _ => (None, None, frame)
      | Ret (curr, prev) =>
        (Some curr, Some prev,
         match draw_flow, flow_color draw_flow given_color with
         | true, Some c => fst (flow_strokes to_int paint c (combine curr prev) frame)
         | _, _ => frame
         end)
      end in
    let '(getter, update_prvs, transformation) :=                               (* 422-432 *)
      match call (me_getter s) curr_pts prev_pts with
      | (g, Ret (u, t)) => (g, u, t)
      | (_, Raise _) => (me_getter_copy s, true, None)
      end in
    ((if update_prvs : bool                                                     (* 434-439 *)
      then MkEst (Some gray_next) None mask getter (me_getter_copy s)
      else MkEst (Some gray_prvs) prev_pts prev_mask getter (me_getter_copy s)),
     frame, Ret transformation)
  end.

(** A loop over a video: before every call the array [Some f] is read from the video, or (None) the array of the last call is used
    again, with whatever has been painted on it.  The frames after the calls (e.g. written to the output video) and the results. *)
Fixpoint draw_video {G T} (V : vision N) (to_int : N -> Z) (paint : frame_t V -> stroke -> frame_t V * result unit)
    (draw_flow : bool) (given_color : option (list Z)) (call : G -> option (points N) -> option (points N) -> G * result (bool * option T))
    (s : estimator V G) (last : frame_t V) (frames : list (option (frame_t V) * option (mask_t V))) : list (frame_t V * result (option T)) :=
  match frames with
  | [] => []
  | (read, mask) :: frames' =>
    let f := match read with Some f => f | None => last end in
    let '(s', f', r) := estimator_update_drawing V to_int paint draw_flow given_color call s f mask in
    (f', r) :: draw_video V to_int paint draw_flow given_color call s' f' frames'
  end.
End Flow.

(** The filter of an object as a function of the detections matched to it, whichever points they contain. *)
From Coq Require Import ZArith Bool Arith List.
From Verif Require Import Model.Num Model.Base Model.Filter Model.Tracker Spec.CallSpec Spec.PointSpec Spec.PhasesSpec.
Import ListNotations.

Section S.
Context {N : Num} {FO : filter_ops N}.

(** Point [k] was above the threshold in one of the detections [ds]. *)
Definition seen_in (thr : N) (ds : list (detection N)) (k : nat) : bool := existsb (fun d => aboveb thr d k) ds.

(** What remains of the corrected state [x] (positions, then velocities; [n] points of dimension [dim]) when detection
    [d] is matched after the detections [ds].  Coordinates of points never seen in [ds] lose their velocity.  Their
    position becomes the one of [d] if a certain point of [d] is above the threshold: for coordinate number c, which
    belongs to point c / dim, this is not that point but point c mod n. *)
Definition overwritten (thr : N) (n dim : nat) (ds : list (detection N)) (d : detection N) (x : list N) : list N :=
  map (fun c => if aboveb thr d (c mod n) && negb (seen_in thr ds (c / dim))
                then nth c (concat (d_absolute_points d)) n0 else nth c x n0) (seq 0 (dim * n)) ++
  map (fun c => if seen_in thr ds (c / dim) then nth (dim * n + c) x n0 else n0) (seq 0 (dim * n)).

(** The filter created from detection [d0] after the calls [fs], and the detections it has seen: one prediction per
    call, one correction for the detection matched in the call, and the changes above. *)
Definition full_replay (thr : N) (n dim i : nat) (d0 : detection N) (fs : list (CallSpec.frame FO)) : fstate FO * list (detection N) :=
  fold_left (fun past f =>
    let flt := f_predict FO (fst past) in
    let r := last_det (f_post f) i in
    if in_dec Nat.eq_dec r (f_dets f) then
      let d := s_heap (f_post f) r in
      let flt := f_update FO flt (concat (d_absolute_points d)) (sensors thr n dim d) in
      (f_set_x FO flt (overwritten thr n dim (snd past) d (f_x FO flt)), snd past ++ [d])
    else (flt, snd past)) fs (f_create FO (d_absolute_points d0), [d0]).
End S.

(** Coordinate [j] of point [k]. *)
Definition coordinate {N : Num} (p : points N) (k j : nat) : option N := match nth_error p k with Some row => nth_error row j | None => None end.

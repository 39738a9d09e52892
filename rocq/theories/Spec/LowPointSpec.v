(** Videos in which the camera loses its points. *)
From Coq Require Import ZArith Reals Bool Arith List.
From Verif Require Import Model.Num Model.Base Model.Tracker Model.CameraMotion Spec.CameraSpec.
Import ListNotations.
Local Open Scope R_scope.

Section L.
Variables (V : vision RNum) (find : points RNum -> points RNum -> result (option (mat3 RNum) * option (list bool))) (thr : R).

(** The estimator before frame [t], and what it returns for frame [t]. *)
Definition before_frame (video : list (frame_t V * option (mask_t V))) (t : nat) : estimator V (hgetter RNum) :=
  after_frames V (hg_call find) (estimator_new V (@hg_new RNum thr)) (firstn t video).
Definition returned_for (video : list (frame_t V * option (mask_t V))) (t : nat) (r : option (homography RNum)) : Prop :=
  nth_error (estimate_video V (hg_call find) (estimator_new V (@hg_new RNum thr)) video) t = Some (Ret r).

(** Fewer than four points of the reference image are found again in image [g]. *)
Definition low_points (s : estimator V (hgetter RNum)) (g : gray_t V) (m : option (mask_t V)) : Prop :=
  exists curr prev, flow V s g m = Ret (curr, prev) /\ (length prev < 4)%nat.

(** [h] takes the image under [A] of every point of the scene to its image under [B], and back. *)
Definition takes (h : homography RNum) (A B : mat3 RNum) : Prop :=
  forall w, depth (apply3 A w) <> 0 -> depth (apply3 B w) <> 0 ->
    ct_abs_to_rel (homography_ct h) [dehomogenize (apply3 A w)] = [dehomogenize (apply3 B w)] /\
    ct_rel_to_abs (homography_ct h) [dehomogenize (apply3 B w)] = [dehomogenize (apply3 A w)].
End L.

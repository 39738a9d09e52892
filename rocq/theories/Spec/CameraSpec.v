(** What "the camera moved" means for coordinate transformations. *)
From Coq Require Import ZArith Reals Bool Arith List.
From Verif Require Import Model.Num Model.Base Model.Tracker Model.CameraMotion Spec.BuiltinSpec.
Import ListNotations.
Local Open Scope nat_scope.

(** Floats compare equal only if they are equal. *)
Definition num_eq (N : Num) : Prop := forall x y : N, neqb x y = true <-> x = y.
(** Two numbers neither of which is smaller are equal. *)
Definition num_total (N : Num) : Prop := forall x y : N, nltb x y = false -> nltb y x = false -> x = y.

Section S.
Context {N : Num}.

(** [v] occurs [k] times in [l]. *)
Definition occurs {A} (v : A) (l : list A) (k : nat) : Prop := how_many (length l) (fun i => nth_error l i = Some v) k.
(** [v] occurs more often than everything else. *)
Definition clear_mode {A} (v : A) (l : list A) : Prop :=
  exists k, occurs v l k /\ 0 < k /\ forall w m, w <> v -> occurs w l m -> m < k.

(** Elements whose status is true. *)
Definition survivors {A} (status : list bool) (l : list A) : list A := map snd (filter fst (combine status l)).

(** Flow vectors current - previous, in multiples of [bin]. *)
Definition flow_vectors (around : N -> N) (bin : N) (curr prev : points N) : points N :=
  map (fun cp => map (fun xy => nmul (around (ndiv (nsub (fst xy) (snd xy)) bin)) bin) (combine (fst cp) (snd cp)))
      (combine curr prev).

(** A point of the scene with coordinates [w] appears at [w + D] in an image displaced by [D]. *)
Definition shifted_by (D : list N) (w : list N) : list N := map (fun xy => nadd (fst xy) (snd xy)) (combine w D).

(** Points of an image. *)
Definition planar (p : points N) : Prop := Forall (fun row => length row = 2) p.

(** An image of the video with its mask. *)
Definition shot (V : vision N) (video : list (frame_t V * option (mask_t V))) (g : gray_t V) (m : option (mask_t V)) : Prop :=
  exists f, In (f, m) video /\ to_gray V f = Ret g.
(** Points of image [g] outside of its mask [m]: corners found in it, as far as they could be followed. *)
Inductive own_points (V : vision N) (video : list (frame_t V * option (mask_t V))) (g : gray_t V) (m : option (mask_t V)) : points N -> Prop :=
| own_corners p : corners V g m = Ret (Some p) -> own_points V video g m p
| own_followed p g' m' curr status : own_points V video g m p -> shot V video g' m' -> optical_flow V g g' p = Ret (curr, status) ->
    own_points V video g m (survivors status p).

(** A video in which optical flow measures the camera displacement [D]: conversion to gray never fails, every
    image has corners, and from any image to any other, starting from points of the first one, the flow is found and
    its most frequent value is the difference of the displacements. *)
Record flow_measures (V : vision N) (video : list (frame_t V * option (mask_t V))) (around : N -> N) (bin : N) (D : gray_t V -> list N) : Prop := {
  fm_gray : forall f m, In (f, m) video -> exists g, to_gray V f = Ret g;
  fm_corners : forall g m, shot V video g m -> exists p, corners V g m = Ret (Some p) /\ p <> [] /\ planar p;
  fm_flow : forall g m g' m' prev, shot V video g m -> shot V video g' m' -> own_points V video g m prev -> prev <> [] -> planar prev -> exists curr status,
     optical_flow V g g' prev = Ret (curr, status) /\ length curr = length prev /\ length status = length prev /\
     clear_mode (map (fun xy => nsub (fst xy) (snd xy)) (combine (D g') (D g)))
                (flow_vectors around bin (survivors status curr) (survivors status prev));
  fm_size : forall g, length (D g) = 2
}.
End S.

(** Homographies. *)
Local Open Scope R_scope.

(** A 3x3 matrix applied to a vector. *)
Definition apply3 (m : mat3 RNum) (v : R * R * R) : R * R * R :=
  let '(x, y, z) := v in
  ((m00 m : R) * x + (m01 m : R) * y + (m02 m : R) * z,
   (m10 m : R) * x + (m11 m : R) * y + (m12 m : R) * z,
   (m20 m : R) * x + (m21 m : R) * y + (m22 m : R) * z).
Definition scale3 (c : R) (v : R * R * R) : R * R * R := let '(x, y, z) := v in (c * x, c * y, c * z).
(** Third coordinate, and the image point of a vector with third coordinate different from 0. *)
Definition depth (v : R * R * R) : R := snd v.
Definition dehomogenize (v : R * R * R) : list R := let '(x, y, z) := v in [x / z; y / z].
(** [m] has an inverse. *)
Definition invertible (m : mat3 RNum) : Prop := exists m', (forall v, apply3 m' (apply3 m v) = v) /\ (forall v, apply3 m (apply3 m' v) = v).

(** A video seen by a camera that sees point [w] of the scene (in homogeneous coordinates) at H(g) w in image g;
    findHomography returns the homography from the reference to the current image, up to a factor.  With
    [low = true] the optical flow may also lose so many points that fewer than four are left. *)
Record homography_measures (low : bool) (V : vision RNum) (video : list (frame_t V * option (mask_t V)))
    (find : points RNum -> points RNum -> result (option (mat3 RNum) * option (list bool))) (H : gray_t V -> mat3 RNum) : Prop := {
  hm_gray : forall f m, In (f, m) video -> exists g, to_gray V f = Ret g;
  hm_corners : forall g m, shot V video g m -> exists p, corners V g m = Ret (Some p) /\ (4 <= length p)%nat /\ planar p;
  hm_flow : forall g m g' m' prev, shot V video g m -> shot V video g' m' -> own_points V video g m prev -> (4 <= length prev)%nat -> planar prev -> exists curr status,
     optical_flow V g g' prev = Ret (curr, status) /\ length curr = length prev /\ length status = length prev /\
     ((low = true /\ (length (survivors status prev) < 4)%nat) \/
      (4 <= length (survivors status prev))%nat /\ exists M used c,
        find (survivors status prev) (survivors status curr) = Ret (Some M, Some used) /\
        c <> 0 /\ forall w, apply3 M (apply3 (H g) w) = scale3 c (apply3 (H g') w));
  hm_invertible : forall g, invertible (H g)
}.

(** Failures. *)
Section Failures.
Context {N : Num} {G T : Type} (V : vision N).

(** The image against which the next image [g] (with mask [m]) is compared, and its mask. *)
Definition reference (s : estimator V G) (g : gray_t V) (m : option (mask_t V)) : gray_t V * option (mask_t V) :=
  match me_gray_prvs s with None => (g, m) | Some r => (r, me_prev_mask s) end.
(** What OpenCV reports when image [g] arrives: the tracked points in [g] and in the reference image, or failure. *)
Definition flow (s : estimator V G) (g : gray_t V) (m : option (mask_t V)) : result (points N * points N) :=
  sparse_flow V g (fst (reference s g m)) (me_prev_pts s) (snd (reference s g m)).
(** The same as arguments of the getter. *)
Definition getter_args (s : estimator V G) (g : gray_t V) (m : option (mask_t V)) : option (points N) * option (points N) :=
  match flow s g m with Ret (c, p) => (Some c, Some p) | Raise _ => (None, None) end.

(** The state after some frames. *)
Fixpoint after_frames (call : G -> option (points N) -> option (points N) -> G * result (bool * option T))
    (s : estimator V G) (frames : list (frame_t V * option (mask_t V))) : estimator V G :=
  match frames with
  | [] => s
  | (f, m) :: frames' => after_frames call (fst (estimator_update V call s f m)) frames'
  end.
(** The transformation returned for the last frame that became the reference image ([last] at the start): the
    frames after which no point of the reference image is known yet. *)
Fixpoint of_last_reference (call : G -> option (points N) -> option (points N) -> G * result (bool * option T))
    (s : estimator V G) (last : option T) (frames : list (frame_t V * option (mask_t V))) : option T :=
  match frames with
  | [] => last
  | (f, m) :: frames' =>
    let (s', r) := estimator_update V call s f m in
    of_last_reference call s' (match r, me_prev_pts s' with Ret t, None => t | _, _ => last end) frames'
  end.
(** An estimator that has just started over from the image [g] with mask [m]. *)
Definition started_over (getter : G) (g : gray_t V) (m : option (mask_t V)) : estimator V G :=
  MkEst (Some g) None m getter getter.
End Failures.

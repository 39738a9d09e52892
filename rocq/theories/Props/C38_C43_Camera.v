(** C38-C43: camera motion and coordinate transformations. *)
From Coq Require Import ZArith QArith Reals Lra Lia Bool Arith.
From Coq Require Import List.
From Verif Require Import Model.Num Model.Base Model.Matching Model.Filter Model.Tracker Model.CameraMotion
  Spec.MatchingSpec Spec.PointSpec Spec.BuiltinSpec Spec.CameraSpec Spec.LowPointSpec Spec.ExampleTracker Spec.ExampleVideo Spec.ExampleCamera
  Proofs.NumLaws Proofs.Float32Proofs Proofs.RingNums Proofs.Effect Proofs.CameraProofs Proofs.HomographyProofs Proofs.LowPointProofs Proofs.CameraExamples Proofs.AbsoluteProofs Proofs.GetterProofs.
From Verif Require Import Spec.CallSpec.
Import ListNotations.
Local Open Scope nat_scope.

(** C38. *)
Theorem C38_round_trip (N : Num) (laws : ring_num N) (v : list N) (p : points N) :
  Forall (fun row => length row = length v) p ->
  ct_rel_to_abs (translation v) (ct_abs_to_rel (translation v) p) = p /\
  ct_abs_to_rel (translation v) (ct_rel_to_abs (translation v) p) = p.
Proof. exact (translation_round_trip laws v p). Qed.
Print Assumptions C38_round_trip.

(** Round trips alone would also hold if both directions were the identity: absolute coordinates are the
    relative ones minus the movement of the image. *)
Theorem C38_direction (N : Num) (v : list N) (p : points N) i j row x d :
  nth_error p i = Some row -> nth_error row j = Some x -> nth_error v j = Some d ->
  (exists r, nth_error (ct_rel_to_abs (translation v) p) i = Some r /\ nth_error r j = Some (nsub x d)) /\
  (exists r, nth_error (ct_abs_to_rel (translation v) p) i = Some r /\ nth_error r j = Some (nadd x d)).
Proof. exact (translation_direction v p i j row x d). Qed.
Print Assumptions C38_direction.

(** C39: points that [m] sends to infinity are those with third coordinate 0. *)
Theorem C39_round_trip (m : mat3 RNum) (h : homography RNum) (p : points RNum) :
  homography_new m = Ret h ->
  Forall (fun row => exists x y, row = [x; y] /\ depth (apply3 m (x, y, 1%R)) <> 0%R) p ->
  ct_rel_to_abs (homography_ct h) (ct_abs_to_rel (homography_ct h) p) = p.
Proof. exact (homography_round_trip m h p). Qed.
Print Assumptions C39_round_trip.

Theorem C39_round_trip_back (m : mat3 RNum) (h : homography RNum) (p : points RNum) :
  homography_new m = Ret h ->
  Forall (fun row => exists x y, row = [x; y] /\ forall w, apply3 m w = (x, y, 1%R) -> depth w <> 0%R) p ->
  ct_abs_to_rel (homography_ct h) (ct_rel_to_abs (homography_ct h) p) = p.
Proof. exact (homography_round_trip_back m h p). Qed.
Print Assumptions C39_round_trip_back.

(** The image of a point is that of the matrix applied to (x, y, 1). *)
Theorem C39_direction (m : mat3 RNum) (h : homography RNum) x y :
  homography_new m = Ret h -> depth (apply3 m (x, y, 1%R)) <> 0%R ->
  ct_abs_to_rel (homography_ct h) [[x; y]] = [dehomogenize (apply3 m (x, y, 1%R))].
Proof. exact (homography_direction m h x y). Qed.
Print Assumptions C39_direction.

(** Where the third coordinate is 0 the other two are divided by 1e-7. *)
Theorem C39_horizon (m : mat3 RNum) (h : homography RNum) x y a b :
  homography_new m = Ret h -> apply3 m (x, y, 1%R) = (a, b, 0%R) ->
  ct_abs_to_rel (homography_ct h) [[x; y]] = [[(a * 10000000)%R; (b * 10000000)%R]].
Proof. exact (homography_horizon m h x y a b). Qed.
Print Assumptions C39_horizon.

Theorem C39_singular (m : mat3 RNum) :
  (invertible m -> exists h, homography_new m = Ret h) /\
  (~ invertible m -> homography_new m = Raise ELinAlgError).
Proof. exact (homography_rejects m). Qed.
Print Assumptions C39_singular.

(** C40: for every video, the transformation returned for frame [t] takes every point of the scene from where it
    appeared in the first frame to where it appears now, and back.  [thr] (which decides when the reference image
    is replaced), the masks and the images are arbitrary. *)
Theorem C40_translation (N : Num) (laws : ring_num N) (eqs : num_eq N) (V : vision N) around bin thr
    (D : gray_t V -> list N) f0 m0 frames g0 t f m g :
  flow_measures V ((f0, m0) :: frames) around bin D -> to_gray V f0 = Ret g0 ->
  nth_error ((f0, m0) :: frames) t = Some (f, m) -> to_gray V f = Ret g ->
  exists v, nth_error (estimate_video V (tg_call around) (estimator_new V (tg_new bin thr)) ((f0, m0) :: frames)) t
      = Some (Ret (Some v)) /\
  forall scene, Forall (fun w => length w = 2) scene ->
    ct_abs_to_rel (translation v) (map (shifted_by (D g0)) scene) = map (shifted_by (D g)) scene /\
    ct_rel_to_abs (translation v) (map (shifted_by (D g)) scene) = map (shifted_by (D g0)) scene.
Proof. exact (camera_translation laws eqs V around bin thr D f0 m0 frames g0 t f m g). Qed.
Print Assumptions C40_translation.

(** C41 for videos in which four points always survive.  Missing: low-point frames, see C41_refuted. *)
Theorem C41_homography_partial V find (thr : R) (H : gray_t V -> mat3 RNum) f0 m0 frames g0 t f mask g :
  homography_measures false V ((f0, m0) :: frames) find H -> to_gray V f0 = Ret g0 ->
  nth_error ((f0, m0) :: frames) t = Some (f, mask) -> to_gray V f = Ret g ->
  exists h, nth_error (estimate_video V (hg_call find) (estimator_new V (@hg_new RNum thr)) ((f0, m0) :: frames)) t
      = Some (Ret (Some h)) /\
  forall w, depth (apply3 (H g0) w) <> 0%R -> depth (apply3 (H g) w) <> 0%R ->
    ct_abs_to_rel (homography_ct h) [dehomogenize (apply3 (H g0) w)] = [dehomogenize (apply3 (H g) w)] /\
    ct_rel_to_abs (homography_ct h) [dehomogenize (apply3 (H g) w)] = [dehomogenize (apply3 (H g0) w)].
Proof. exact (camera_homography V find thr H f0 m0 frames g0 t f mask g). Qed.
Print Assumptions C41_homography_partial.

(** C41, the exact law for all videos. The estimator takes pose t for the first image (pose 0 is the first image). In a
    frame with enough points the pose stays and the returned transformation takes it to the current image. In a frame with
    fewer than four points the transformation of the reference image [r] (or None) is returned, and from then on what is
    seen in this frame is taken for what was seen at the same place of the reference image: the motion between the two
    images is lost. *)
Theorem C41_low_points V find (thr : R) (H : gray_t V -> mat3 RNum) f0 m0 frames g0 :
  let video := (f0, m0) :: frames in
  homography_measures true V video find H -> to_gray V f0 = Ret g0 ->
  exists pose : nat -> mat3 RNum, pose 0 = H g0 /\ forall t f m g, nth_error video t = Some (f, m) -> to_gray V f = Ret g ->
    let s := before_frame V find thr video t in let r := fst (reference V s g m) in
    invertible (pose t) /\
    (~ low_points V s g m -> pose (S t) = pose t /\ exists h, returned_for V find thr video t (Some h) /\ takes h (pose t) (H g)) /\
    (low_points V s g m ->
      (returned_for V find thr video t None \/ exists h, returned_for V find thr video t (Some h) /\ takes h (pose t) (H r)) /\
      forall v w, apply3 (H r) v = apply3 (H g) w -> apply3 (pose (S t)) w = apply3 (pose t) v).
Proof. exact (low_point_poses V find thr H f0 m0 frames g0). Qed.
Print Assumptions C41_low_points.
(** So the transformations returned between two frames with too few points agree with one another, and those before the
    first one are right. *)
Theorem C41_stretches V find (thr : R) (H : gray_t V -> mat3 RNum) f0 m0 frames g0 a b :
  let video := (f0, m0) :: frames in
  homography_measures true V video find H -> to_gray V f0 = Ret g0 ->
  (forall t f m g, a <= t < b -> nth_error video t = Some (f, m) -> to_gray V f = Ret g -> ~ low_points V (before_frame V find thr video t) g m) ->
  exists A, invertible A /\ (a = 0 -> A = H g0) /\ forall t f m g, a <= t < b -> nth_error video t = Some (f, m) -> to_gray V f = Ret g ->
    exists h, returned_for V find thr video t (Some h) /\ takes h A (H g).
Proof. exact (low_point_stretch V find thr H f0 m0 frames g0 a b). Qed.
Print Assumptions C41_stretches.

(** Finding: a frame with fewer than four points replaces the reference image, the motion between the two images is
    lost, and the transformation of a later frame is wrong. *)
Theorem C41_refuted : exists V find (thr : R) (H : gray_t V -> mat3 RNum) f0 frames t f g0 g h w,
  homography_measures true V (map (fun f => (f, None)) (f0 :: frames)) find H /\ to_gray V f0 = Ret g0 /\ to_gray V f = Ret g /\
  nth_error (f0 :: frames) t = Some f /\
  nth_error (estimate_video V (hg_call find) (estimator_new V (@hg_new RNum thr)) (map (fun f => (f, None)) (f0 :: frames))) t
      = Some (Ret (Some h)) /\
  depth (apply3 (H g0) w) <> 0%R /\ depth (apply3 (H g) w) <> 0%R /\
  ct_abs_to_rel (homography_ct h) [dehomogenize (apply3 (H g0) w)] <> [dehomogenize (apply3 (H g) w)].
Proof. exact low_points_drift. Qed.
Print Assumptions C41_refuted.

(** C42: whatever the flow and the getter do, [update] returns (cvtColor comes first and is not guarded: if it
    raises, so does [update], without any change). *)
Theorem C42_contained (N : Num) (V : vision N) (G T : Type)
    (call : G -> option (points N) -> option (points N) -> G * result (bool * option T)) s f m :
  (forall g, to_gray V f = Ret g -> exists s' t, estimator_update V call s f m = (s', Ret t)) /\
  (forall e, to_gray V f = Raise e -> estimator_update V call s f m = (s, Raise e)).
Proof. exact (conj (no_escape V call s f m) (escapes_gray V call s f m)). Qed.
Print Assumptions C42_contained.

(** C42: after any frames, if the getter raises, [update] returns None and starts over with the getter it was
    created with and the current frame as reference. *)
Theorem C42_getter_fails (N : Num) (V : vision N) (G T : Type)
    (call : G -> option (points N) -> option (points N) -> G * result (bool * option T)) getter frames s f m g g' e :
  s = after_frames V call (estimator_new V getter) frames -> to_gray V f = Ret g ->
  call (me_getter s) (fst (getter_args V s g m)) (snd (getter_args V s g m)) = (g', Raise e) ->
  estimator_update V call s f m = (started_over V getter g m, Ret None).
Proof. exact (starts_over V call getter frames s f m g g' e). Qed.
Print Assumptions C42_getter_fails.

(** C42 for translations: the same if the optical flow raises.  Missing for homographies, see C42_refuted. *)
Theorem C42_flow_fails_partial (N : Num) (V : vision N) around getter frames s f m g e :
  s = after_frames V (tg_call around) (estimator_new V getter) frames -> to_gray V f = Ret g ->
  flow V s g m = Raise e ->
  estimator_update V (tg_call around) s f m = (started_over V getter g m, Ret None).
Proof. exact (flow_fails_translation V around getter frames s f m g e). Qed.
Print Assumptions C42_flow_fails_partial.

(** C42 for homographies: if the optical flow raises, [update] returns the transformation it returned for the last
    frame that became the reference image (None if there is none), forgets nothing, and takes the current frame as
    the reference. *)
Theorem C42_flow_fails_law (N : Num) (V : vision N) find thr frames s f m g e :
  s = after_frames V (hg_call find) (estimator_new V (@hg_new N thr)) frames -> to_gray V f = Ret g ->
  flow V s g m = Raise e ->
  estimator_update V (hg_call find) s f m =
    (MkEst (Some g) None m (me_getter s) (hg_new thr),
     Ret (of_last_reference V (hg_call find) (estimator_new V (hg_new thr)) None frames)).
Proof. exact (flow_fails_homography V find thr frames s f m g e). Qed.
Print Assumptions C42_flow_fails_law.
(** The case of C42_refuted is one: the transformation that comes back is the one of the reference image. *)
Example ex42_law : exists frames h,
  of_last_reference exq_vision (hg_call exq_find) (estimator_new exq_vision (@hg_new QNum 2%Q)) None frames = Some h /\
  (exists e, flow exq_vision (after_frames exq_vision (hg_call exq_find) (estimator_new exq_vision (@hg_new QNum 2%Q)) frames) 2%Z None = Raise e).
Proof. exact stale_is_reference. Qed.

(** Finding: with homographies a failing optical flow does not give None but an earlier transformation. *)
Theorem C42_refuted : exists (V : vision QNum) find thr frames f h,
  let s := after_frames V (hg_call find) (estimator_new V (@hg_new QNum thr)) frames in
  (exists g e, to_gray V f = Ret g /\ flow V s g None = Raise e) /\
  snd (estimator_update V (hg_call find) s f None) = Ret (Some h).
Proof. exact flow_failure_stale. Qed.
Print Assumptions C42_refuted.

(** C43: in general the transformation is applied to the absolute points the detection already has, once for
    every time the detection is listed. *)
Theorem C43_absolute_points (N : Num) (laws : NumLaws N) (FO : filter_ops N) (c : tconf FO) dets p T (s s' : st FO) out r :
  rnd_ok (tc_rnd c) -> tracker_state c s -> update c (Some dets) p (Some T) s = (s', Ret out) ->
  d_absolute_points (s_heap s' r) = Nat.iter (count_occ Nat.eq_dec dets r) (ct_rel_to_abs T) (d_absolute_points (s_heap s r)) /\
  d_points (s_heap s' r) = d_points (s_heap s r).
Proof. exact (absolute_points_after laws c dets p T s s' out r). Qed.
Print Assumptions C43_absolute_points.

(** C43 for detections that are new (absolute_points = points) and listed once.  Missing: the others, see
    C43_refuted. *)
Theorem C43_new_detections_partial (N : Num) (laws : NumLaws N) (FO : filter_ops N) (c : tconf FO) dets p T (s s' : st FO) out r :
  rnd_ok (tc_rnd c) -> tracker_state c s -> update c (Some dets) p (Some T) s = (s', Ret out) ->
  d_absolute_points (s_heap s r) = d_points (s_heap s r) -> NoDup dets -> In r dets ->
  d_absolute_points (s_heap s' r) = ct_rel_to_abs T (d_points (s_heap s' r)).
Proof. exact (absolute_points_once laws c dets p T s s' out r). Qed.
Print Assumptions C43_new_detections_partial.

(** Without transformations the coordinates stay as they are. *)
Theorem C43_no_transformation (N : Num) (laws : NumLaws N) (FO : filter_ops N) (c : tconf FO) dets p (s s' : st FO) out r :
  rnd_ok (tc_rnd c) -> tracker_state c s -> update c dets p None s = (s', Ret out) ->
  d_absolute_points (s_heap s' r) = d_absolute_points (s_heap s r) /\ d_points (s_heap s' r) = d_points (s_heap s r).
Proof. exact (no_transformation laws c dets p s s' out r). Qed.
Print Assumptions C43_no_transformation.

(** Finding: a Detection that is passed in twice (in two calls, or in one) is transformed twice. *)
Theorem C43_refuted : exists (N : Num) (FO : filter_ops N) (c : tconf FO) s fs f T r,
  tracker_state c s /\ video c s fs /\ In f fs /\ f_ct f = Some T /\ In r (f_dets f) /\ NoDup (f_dets f) /\
  d_absolute_points (s_heap (f_post f) r) <> ct_rel_to_abs T (d_points (s_heap (f_post f) r)).
Proof. exact reused_detection. Qed.
Print Assumptions C43_refuted.

Theorem C43_refuted_twice : exists (N : Num) (FO : filter_ops N) (c : tconf FO) s fs f T r,
  tracker_state c s /\ video c s fs /\ In f fs /\ f_ct f = Some T /\ In r (f_dets f) /\
  d_absolute_points (s_heap (f_pre f) r) = d_points (s_heap (f_pre f) r) /\
  d_absolute_points (s_heap (f_post f) r) <> ct_rel_to_abs T (d_points (s_heap (f_post f) r)).
Proof. exact repeated_detection. Qed.
Print Assumptions C43_refuted_twice.

(** Concrete cases. *)
Example C38_case : Forall (fun row => length row = length [3%R; (-4)%R]) [[1%R; 2%R]; [5%R; 6%R]].
Proof. repeat constructor. Qed.

(** A homography with perspective. *)
Example C39_case : let m := @MkM RNum 1%R 0%R 2%R 0%R 1%R 3%R (1 / 100)%R 0%R 1%R in
  (exists h, homography_new m = Ret h) /\
  Forall (fun row => exists x y, row = [x; y] /\ depth (apply3 m (x, y, 1%R)) <> 0%R) [[1%R; 2%R]; [50%R; (-3)%R]].
Proof. exact perspective_case. Qed.

(** A point on the horizon of this homography. *)
Example C39_horizon_case : apply3 (@MkM RNum 1%R 0%R 2%R 0%R 1%R 3%R (1 / 100)%R 0%R 1%R) (-100, 0, 1)%R = (-98, 3, 0)%R.
Proof. unfold apply3. cbn. (f_equal; [f_equal|]); lra. Qed.

(** A camera moving by three pixels and back; reference updates at every frame (thr = 2) or never (thr = 0). *)
Example C40_case : num_eq RNum /\ flow_measures (ex_vision never) (map (fun z => (z, None)) [0; 3; 5; 1]%Z) ex_around 1%R ex_displacement /\
  exists v, nth_error (estimate_video (ex_vision never) (@tg_call RNum ex_around) (estimator_new (ex_vision never) (@tg_new RNum 1%R 2%R))
      (map (fun z => (z, None)) [0; 3; 5; 1]%Z)) 2 = Some (Ret (Some v)) /\
    ct_abs_to_rel (translation v) [[0 + 0; 7 + 0]]%R = [[0 + 5; 7 + 0]]%R.
Proof. exact translation_case. Qed.

Example C41_case video : homography_measures false (ex_vision never) video ex_find ex_homography.
Proof. exact (ex_homography_measures false never video (or_intror (fun _ _ => eq_refl))). Qed.

Example C41_lost_case : homography_measures true (ex_vision lost1) (map (fun z => (z, None)) [0; 1; 2]%Z) ex_find ex_homography /\
  low_points (ex_vision lost1) (before_frame (ex_vision lost1) ex_find (9 / 10) (map (fun z => (z, None)) [0; 1; 2]%Z) 1) 1%Z None.
Proof. exact lost_case. Qed.

(** The flow fails at image 2: a translation estimator starts over. *)
Example C42_case : exists e,
  let s := after_frames exq_vision (tg_call (fun x : QNum => x)) (estimator_new exq_vision (tg_new (1%Q : QNum) (1%Q : QNum))) [(0%Z, None); (1%Z, None)] in
  flow exq_vision s 2%Z None = Raise e.
Proof. exists ERuntimeError. vm_compute. reflexivity. Qed.

(** A tracked object and a camera displaced by 10. *)
Example C43_case : exists s' out,
  let s := meanwhile ex_s3 (put (s_heap ex_s3) [(4, ex_det 13)]) (s_gcount ex_s3) in
  tracker_state ex_conf s /\ update ex_conf (Some [4]) 1%Z (Some ex_camera) s = (s', Ret out) /\
  d_absolute_points (s_heap s 4) = d_points (s_heap s 4) /\ ex_point (d_absolute_points (s_heap s' 4)) = 3%Q.
Proof. exact absolute_case. Qed.

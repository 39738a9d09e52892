(** C108: drawing the optical flow. *)
From Coq Require Import ZArith QArith Bool List.
From Verif Require Import Model.Num Model.Base Model.Images Model.Tracker Model.CameraMotion Model.FlowDrawing Spec.CameraSpec Spec.FlowSpec Proofs.FlowProofs.
Import ListNotations.

(** C108: drawing the flow changes no result, whatever is painted and whether or not painting raises, when every frame is a new array. *)
Theorem C108_estimates (N : Num) (G T : Type) (V : vision N) to_int (paint : frame_t V -> stroke -> frame_t V * result unit) given
    (call : G -> option (points N) -> option (points N) -> G * result (bool * option T)) draw frames s last :
  map snd (draw_video V to_int paint draw given call s last (map (fun fm => (Some (fst fm), snd fm)) frames)) = estimate_video V call s frames.
Proof. exact (same_estimates V to_int paint given call draw frames s last). Qed.
Print Assumptions C108_estimates.

(** What is on the frame afterwards: the arrows of the tracked points in their order, up to the first call that raises; in the given colour or dark red. *)
Theorem C108_arrows (N : Num) (G T : Type) (V : vision N) to_int (paint : frame_t V -> stroke -> frame_t V * result unit) given
    (call : G -> option (points N) -> option (points N) -> G * result (bool * option T)) s f m g now before :
  to_gray V f = Ret g -> flow V s g m = Ret (now, before) ->
  painted paint f (arrows to_int (match given with Some c => c | None => dark_red end) now before)
    (snd (fst (estimator_update_drawing V to_int paint true given call s f m))).
Proof. exact (drawn V to_int paint given call s f m g now before). Qed.
Print Assumptions C108_arrows.

(** The frame is not touched without draw_flow, nor when the image cannot be converted or the flow cannot be computed. *)
Theorem C108_untouched (N : Num) (G T : Type) (V : vision N) to_int (paint : frame_t V -> stroke -> frame_t V * result unit) given
    (call : G -> option (points N) -> option (points N) -> G * result (bool * option T)) draw s f m :
  draw = false \/ (forall g, to_gray V f = Ret g -> exists e, flow V s g m = Raise e) ->
  snd (fst (estimator_update_drawing V to_int paint draw given call s f m)) = f.
Proof.
  exact (fun H => match H with
                  | or_introl E => eq_ind_r (fun d => snd (fst (estimator_update_drawing V to_int paint d given call s f m)) = f) (not_drawn V to_int paint given call s f m) E
                  | or_intror E => no_flow V to_int paint given call draw s f m E end).
Qed.
Print Assumptions C108_untouched.

(** When an array is passed twice, the flow painted on it by the first call counts as part of the image in the second. *)
Theorem C108_same_array_refuted : exists frames, map snd (fl_run true fl_paint frames) <> map snd (fl_run false fl_paint frames).
Proof. exact same_array_refuted. Qed.
Print Assumptions C108_same_array_refuted.

(** The documented default colour is blue; it is a dark red. *)
Theorem C108_blue_refuted : exists s f m, exists st,
  In st (snd (snd (fst (estimator_update_drawing (T := list Q) fl_vision trunc fl_paint true None (tg_call (N := QNum) fl_around) s f m)))) /\
  ~ is_blue (match st with Line _ _ c _ | Disc _ _ c => c end).
Proof. exact blue_refuted. Qed.
Print Assumptions C108_blue_refuted.

(* ---- two images; the point at (1.5, 0) moves by one pixel ---- *)
Example C108_example : fl_run true fl_paint [(Some (0%Z, []), None); (Some (1%Z, []), None)] =
  [((0%Z, [Line [1; 0]%Z [1; 0]%Z dark_red 2%Z; Disc [1; 0]%Z 3%Z dark_red]), Ret (Some [0; 0]%Q));
   ((1%Z, [Line [2; 0]%Z [1; 0]%Z dark_red 2%Z; Disc [2; 0]%Z 3%Z dark_red]), Ret (Some [1; 0]%Q))].
Proof. vm_compute. reflexivity. Qed.
Example C108_example_broken : fl_run true fl_broken [(Some (0%Z, []), None); (Some (1%Z, []), None)] =
  [((0%Z, [Line [1; 0]%Z [1; 0]%Z dark_red 2%Z]), Ret (Some [0; 0]%Q));
   ((1%Z, [Line [2; 0]%Z [1; 0]%Z dark_red 2%Z]), Ret (Some [1; 0]%Q))].
Proof. vm_compute. reflexivity. Qed.

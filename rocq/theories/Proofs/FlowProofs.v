(** Drawing the optical flow. *)
From Coq Require Import ZArith QArith Bool List.
From Verif Require Import Model.Num Model.Base Model.Images Model.Tracker Model.CameraMotion Model.FlowDrawing Spec.CameraSpec Spec.FlowSpec.
Import ListNotations.

Section Draw.
Context {N : Num} {G T : Type} (V : vision N) (to_int : N -> Z) (paint : frame_t V -> stroke -> frame_t V * result unit)
  (given : option (list Z)) (call : G -> option (points N) -> option (points N) -> G * result (bool * option T)).

Lemma strokes_painted c pairs : forall f, painted paint f (flat_map (fun q => arrow to_int c (fst q) (snd q)) pairs) (fst (flow_strokes to_int paint c pairs f)).
Proof.
  induction pairs as [|[a b] pairs IH]; intros f; [constructor|]. cbn [flow_strokes flat_map arrow app fst snd].
  destruct (paint f _) as [f1 [[]|e]] eqn:E1; [|exact (painted_stop _ _ _ _ _ _ E1)]. eapply painted_next; [exact E1|].
  destruct (paint f1 _) as [f2 [[]|e]] eqn:E2; [|exact (painted_stop _ _ _ _ _ _ E2)]. eapply painted_next; [exact E2|]. apply IH.
Qed.

Lemma same_step draw s f m : estimator_update V call s f m =
  (fst (fst (estimator_update_drawing V to_int paint draw given call s f m)), snd (estimator_update_drawing V to_int paint draw given call s f m)).
Proof.
  unfold estimator_update, estimator_update_drawing. destruct (to_gray V f) as [g|e]; [|reflexivity].
  destruct (match me_gray_prvs s with None => _ | Some _ => _ end) as [gp pm]. destruct (sparse_flow V g gp (me_prev_pts s) pm) as [[c p]|e];
  destruct (call (me_getter s) _ _) as [g' [[u t]|e']]; reflexivity.
Qed.

Lemma same_estimates draw frames : forall s last,
  map snd (draw_video V to_int paint draw given call s last (map (fun fm => (Some (fst fm), snd fm)) frames)) = estimate_video V call s frames.
Proof.
  induction frames as [|[f m] frames IH]; intros s last; [reflexivity|]. cbn [map draw_video estimate_video fst snd].
  rewrite (same_step draw s f m). destruct (estimator_update_drawing V to_int paint draw given call s f m) as [[s' f'] r]. cbn [fst snd map].
  f_equal. apply IH.
Qed.

Lemma not_drawn s f m : snd (fst (estimator_update_drawing V to_int paint false given call s f m)) = f.
Proof.
  unfold estimator_update_drawing. destruct (to_gray V f) as [g|e]; [|reflexivity].
  destruct (match me_gray_prvs s with None => _ | Some _ => _ end) as [gp pm]. destruct (sparse_flow V g gp (me_prev_pts s) pm) as [[c p]|e];
  destruct (call (me_getter s) _ _) as [g' [[u t]|e']]; reflexivity.
Qed.

Lemma no_flow draw s f m : (forall g, to_gray V f = Ret g -> exists e, flow V s g m = Raise e) ->
  snd (fst (estimator_update_drawing V to_int paint draw given call s f m)) = f.
Proof.
  intros H. unfold estimator_update_drawing. destruct (to_gray V f) as [g|e]; [|reflexivity].
  destruct (H g eq_refl) as [e E]. unfold flow, reference in E. destruct (me_gray_prvs s) as [gp|]; cbn [fst snd] in E; rewrite E;
  destruct (call (me_getter s) _ _) as [g' [[u t]|e']]; reflexivity.
Qed.

Lemma drawn s f m g now before : to_gray V f = Ret g -> flow V s g m = Ret (now, before) ->
  painted paint f (arrows to_int (match given with Some c => c | None => dark_red end) now before)
    (snd (fst (estimator_update_drawing V to_int paint true given call s f m))).
Proof.
  intros Hg E. unfold estimator_update_drawing. rewrite Hg.
  assert (X : match me_gray_prvs s with None => (g, m) | Some g0 => (g0, me_prev_mask s) end = reference V s g m) by reflexivity.
  rewrite X. unfold flow in E. destruct (reference V s g m) as [gp pm]. cbn [fst snd] in E. rewrite E.
  assert (C : flow_color true given = Some (match given with Some c => c | None => dark_red end)) by (destruct given; reflexivity). rewrite C.
  destruct (call (me_getter s) _ _) as [g' [[u t]|e']]; cbn [fst snd]; apply strokes_painted.
Qed.
End Draw.

Lemma same_array_refuted : exists frames, map snd (fl_run true fl_paint frames) <> map snd (fl_run false fl_paint frames).
Proof. exists [(Some (0%Z, []), None); (None, None); (None, None)]. vm_compute. discriminate. Qed.
Lemma blue_refuted : exists s f m, exists st, In st (snd (snd (fst (estimator_update_drawing (T := list Q) fl_vision trunc fl_paint true None (tg_call (N := QNum) fl_around) s f m)))) /\
  ~ is_blue (match st with Line _ _ c _ | Disc _ _ c => c end).
Proof.
  exists fl_start, (0%Z, []), None, (Line [1; 0]%Z [1; 0]%Z [0; 0; 100]%Z 2%Z). split; [vm_compute; left; reflexivity|]. cbn. intros [H _]. discriminate.
Qed.

(** C89: the deprecated drawing functions. *)
From Coq Require Import ZArith QArith Bool String List.
From Verif Require Import Model.Num Model.Base Model.Filter Model.Tracker Model.CameraMotion Model.Strings Model.Color Model.Drawing
  Spec.DrawingSpec Proofs.DrawingProofs Proofs.DeprecatedDrawing.
Import ListNotations.
Local Open Scope nat_scope.

(** draw_tracked_objects draws circles and texts and returns nothing. Its defaults follow the height of the frame: the
    radius is height/200 and the thickness of the text height/500, both rounded down, and so 0 for low frames; the size of
    the text is label_size, 1 by default (in frames lower than 20000). *)
Theorem C89_tracked_objects hash_str rand score_text sh p objects radius color id_size id_thickness dp cl dl label_size cs r :
  draw_tracked_objects hash_str rand score_text sh p objects radius color id_size id_thickness dp cl dl label_size = (cs, Ret r) ->
  (0 <= fst (fst sh) < 20000)%Z -> r = Nothing /\ forall c, In c cs ->
  (exists q col t, c = Circle q (match radius with Some r => r | None => fst (fst sh) / 200 end)%Z col t) \/
  exists s o z cc, c = PutText s o z cc (match id_thickness with Some t => t | None => fst (fst sh) / 500 end)%Z /\
    match label_size with None => z == 1 | Some q => ~ q == 0 -> z = q end%Q.
Proof. exact (tracked_objects_spec hash_str rand score_text sh p objects radius color id_size id_thickness dp cl dl label_size cs r). Qed.
Print Assumptions C89_tracked_objects.
(** The size given for the ids has no influence (unless label_size is 0), as long as it is positive. *)
Theorem C89_id_size_ignored_refuted hash_str rand score_text sh p objects radius color s1 s2 id_thickness dp cl dl label_size :
  (0 < fst (fst sh))%Z -> match s1 with Some q => 0 < q | None => True end%Q -> match s2 with Some q => 0 < q | None => True end%Q ->
  match label_size with Some q => ~ q == 0 | None => True end%Q ->
  draw_tracked_objects hash_str rand score_text sh p objects radius color s1 id_thickness dp cl dl label_size =
  draw_tracked_objects hash_str rand score_text sh p objects radius color s2 id_thickness dp cl dl label_size.
Proof. exact (tracked_objects_id_size hash_str rand score_text sh p objects radius color s1 s2 id_thickness dp cl dl label_size). Qed.
Print Assumptions C89_id_size_ignored_refuted.
(** draw_tracked_boxes writes the label if draw_labels, and the id if a positive id_size is given: by default it writes
    nothing. *)
Theorem C89_tracked_boxes hash_str rand score_text sh p objects color width id_size id_thickness db cl dl label_size label_width cs r :
  draw_tracked_boxes hash_str rand score_text sh p objects color width id_size id_thickness db cl dl label_size label_width = (cs, r) ->
  forall s o z c t, In (PutText s o z c t) cs ->
  exists ds d, objects = Some ds /\ In d ds /\ s <> EmptyString /\
    s = joined [(if dl then label_part d else EmptyString); (if match id_size with Some q => negb (Qle_bool q 0) | None => false end then id_part d else EmptyString)].
Proof. exact (tracked_boxes_ids hash_str rand score_text sh p objects color width id_size id_thickness db cl dl label_size label_width cs r). Qed.
Print Assumptions C89_tracked_boxes.
(** The rest is as in draw_points and draw_boxes. *)
Theorem C89_as_draw_points hash_str rand score_text sh p objects radius color id_size id_thickness thickness dp dl label_size size :
  ((0 < fst (fst sh))%Z -> ~ (size == 0)%Q ->
   draw_tracked_objects hash_str rand score_text sh p objects (Some radius) color None (Some thickness) dp false dl (Some size) =
   match draw_points hash_str rand score_text sh p (MkArgs color None dl true false dp None (Some size) (Some thickness)) (Some radius) true None objects with
   | (cs, Ret _) => (cs, Ret Nothing) | r => r end) /\
  draw_tracked_objects hash_str rand score_text sh p objects (Some radius) color id_size id_thickness dp true dl label_size =
  draw_tracked_objects hash_str rand score_text sh p objects (Some radius) ByLabel id_size id_thickness dp false dl label_size.
Proof. exact (conj (tracked_objects_args hash_str rand score_text sh p objects radius color thickness dp dl size) (tracked_objects_by_label hash_str rand score_text sh p objects (Some radius) color id_size id_thickness dp dl label_size)). Qed.
Print Assumptions C89_as_draw_points.
Theorem C89_as_draw_boxes hash_str rand score_text sh p objects color width db cl dl s t :
  draw_tracked_boxes hash_str rand score_text sh p objects color width None None db cl dl None None =
    draw_boxes hash_str rand score_text sh p (MkArgs (if cl then ByLabel else color) width dl false false db None None None) None None objects /\
  ((0 < s)%Q -> t <> 0%Z ->
   draw_tracked_boxes hash_str rand score_text sh p objects color width (Some s) (Some t) db cl dl None None =
   draw_boxes hash_str rand score_text sh p (MkArgs (if cl then ByLabel else color) width dl true false db None (Some s) (Some t)) None None objects).
Proof. exact (tracked_boxes_args hash_str rand score_text sh p objects color width db cl dl s t). Qed.
Print Assumptions C89_as_draw_boxes.

Definition ex89 : drawable := MkDrawable [[1; 2]; [5; 6]]%Q (Some 7) (LStr "car"%string) None [true; true].
Definition ex89_palette : palette := MkPalette [(1, 2, 3); (4, 5, 6)]%Z (0, 0, 0)%Z.
Example ex89_objects : draw_tracked_objects (fun _ => 0%Z) (fun _ => 0%Z) (fun _ => "0.5"%string) (480, 640, 3)%Z ex89_palette (Some [ex89]) None ById (Some (5 # 1)) None true false true None =
  ([Circle [1; 2] 2 (4, 5, 6) (-1); Circle [5; 6] 2 (4, 5, 6) (-1); PutText "car-7" (2, 3) 1 (0, 0, 0) 0; PutText "car-7" (1, 2) 1 (4, 5, 6) 0]%Z, Ret Nothing).
Proof. vm_compute. reflexivity. Qed.
Example ex89_boxes : draw_tracked_boxes (fun _ => 0%Z) (fun _ => 0%Z) (fun _ => "0.5"%string) (480, 640, 3)%Z ex89_palette (Some [ex89]) ById None None None true false false None None =
  ([Rectangle [1; 2] [5; 6] (4, 5, 6) 1]%Z, Ret TheFrame).
Proof. vm_compute. reflexivity. Qed.

(** C64-C72: colors and drawings. *)
From Coq Require Import ZArith QArith Bool Arith Ascii String List Lia.
From Verif Require Import Model.Num Model.Base Model.Filter Model.Tracker Model.CameraMotion Model.Images Model.Strings Model.Color Model.Drawing
  Spec.ImageSpec Spec.DrawingSpec Spec.ColorSpec Proofs.ImageProofs Proofs.ColorProofs Proofs.DrawingProofs.
Import ListNotations.
Local Open Scope nat_scope.

(** C64: "#rrggbb" is (blue, green, red), "#rgb" doubles each digit, and nothing else is accepted (apart from one
    newline at the end). *)
Theorem C64_hex_colors s :
  (forall r g b, byte r -> byte g -> byte b -> s = hex6 r g b -> hex_to_bgr s = Ret (b, g, r)) /\
  (forall r g b, nibble r -> nibble g -> nibble b -> s = hex3 r g b -> hex_to_bgr s = Ret (17 * b, 17 * g, 17 * r)%Z) /\
  ((forall r g b e, e = EmptyString \/ e = String "010" EmptyString -> byte r -> byte g -> byte b -> s <> (hex6 r g b ++ e)%string) ->
   (forall r g b e, e = EmptyString \/ e = String "010" EmptyString -> nibble r -> nibble g -> nibble b -> s <> (hex3 r g b ++ e)%string) ->
   hex_to_bgr s = Raise EValueError) /\
  (forall c, hex_to_bgr s = Ret c -> byte_color c).
Proof. exact (hex_all s). Qed.
Print Assumptions C64_hex_colors.
(** The form "#FF0000" of the documentation of draw_points and draw_boxes is rejected. *)
Theorem C64_refuted_uppercase : parse_color (ColStr "#FF0000") = Raise EValueError.
Proof. exact uppercase. Qed.
Print Assumptions C64_refuted_uppercase.
Example ex64 : hex6 255 128 10 = "#ff800a"%string /\ hex_to_bgr "#ff800a" = Ret (10, 128, 255)%Z /\ hex_to_bgr "#f0a" = Ret (170, 0, 255)%Z.
Proof. vm_compute. auto. Qed.

(** C65: a color given as a string that starts with "#" is a triple of bytes or ValueError is raised; otherwise it is the
    color that CSS, matplotlib or seaborn call so, or AttributeError is raised. *)
Theorem C65_color_strings s :
  (exists c, parse_color (ColStr s) = Ret c /\ byte_color c /\ ((exists t, s = String "#" t) \/ exists v, In (s, v) standard_colors /\ c = bgr_of v)) \/
  (parse_color (ColStr s) = Raise EValueError /\ exists t, s = String "#" t) \/
  (parse_color (ColStr s) = Raise EAttributeError /\ ~ In s (map fst standard_colors)).
Proof. exact (parse_standard s). Qed.
Print Assumptions C65_color_strings.
(** All names are colors. *)
Theorem C65_color_names name c : In (name, c) standard_colors -> parse_color (ColStr name) = Ret (bgr_of c).
Proof. exact (parse_name name c). Qed.
Print Assumptions C65_color_names.
Example ex65 : parse_color (ColStr "red") = Ret (0, 0, 255)%Z /\ parse_color (ColStr "green") = Ret (0, 128, 0)%Z /\ parse_color (ColStr "Red") = Raise EAttributeError.
Proof. vm_compute. auto. Qed.

(** C66: what Palette.set accepts; a failed call changes nothing. *)
Theorem C66_set_by_name name p :
  (forall cs, palette_colors name = Some cs -> set_palette (inl name) p = (MkPalette (map bgr_of cs) (pa_default p), Ret tt) /\ NoDup cs) /\
  (palette_colors name = None -> set_palette (inl name) p = (p, Raise EValueError)) /\
  pa_colors palette0 = map bgr_of tab10_colors.
Proof. exact (set_standard name p). Qed.
Print Assumptions C66_set_by_name.
Theorem C66_set_list cs p vs : Forall2 (fun c v => parse_color c = Ret v) cs vs -> set_palette (inr cs) p = (MkPalette vs (pa_default p), Ret tt).
Proof. exact (set_list cs p vs). Qed.
Print Assumptions C66_set_list.
Theorem C66_failed_set arg c p p' e :
  (set_palette arg p = (p', Raise e) -> p' = p) /\ (set_default_color c p = (p', Raise e) -> p' = p) /\
  (forall v, parse_color c = Ret v -> set_default_color c p = (MkPalette (pa_colors p) v, Ret tt)).
Proof. exact (set_failures arg c p p' e). Qed.
Print Assumptions C66_failed_set.
(** Colors come from the palette, equal keys give equal colors, no key gives the default color, and ids that are close
    to each other get different colors. *)
Theorem C66_choose p :
  choose_color p None = Ret (pa_default p) /\
  (pa_colors p <> [] -> forall h, exists c, choose_color p (Some h) = Ret c /\ In c (pa_colors p)) /\
  (pa_colors p = [] -> forall h, choose_color p (Some h) = Raise EZeroDivisionError).
Proof. exact (choose_all p). Qed.
Print Assumptions C66_choose.
Theorem C66_distinct_ids p a b ca cb : NoDup (pa_colors p) -> (Z.of_nat a < hash_modulus)%Z -> (Z.of_nat b < hash_modulus)%Z ->
  a <> b -> (Z.abs (Z.of_nat a - Z.of_nat b) < Z.of_nat (length (pa_colors p)))%Z ->
  choose_color p (hash_id (Some a)) = Ret ca -> choose_color p (hash_id (Some b)) = Ret cb -> ca <> cb.
Proof. exact (choose_distinct p a b ca cb). Qed.
Print Assumptions C66_distinct_ids.
Example ex66 : NoDup (pa_colors palette0) /\ length (pa_colors palette0) = 10 /\
  choose_color palette0 (hash_id (Some 3)) = Ret (40, 39, 214)%Z /\ choose_color palette0 (hash_id (Some 12)) = Ret (44, 160, 44)%Z /\
  choose_color palette0 (hash_id (Some 13)) = Ret (40, 39, 214)%Z.
Proof. split; [apply nodupb_ok|]; vm_compute; auto. Qed.

(** C67: the text of an object is its label, id and scores, as far as asked for and known, joined by "-". *)
Theorem C67_text score_text d (labels ids scores : bool) : (forall sc, score_text sc <> EmptyString) ->
  build_text score_text d labels ids scores =
  joined [(if labels then label_part d else EmptyString); (if ids then id_part d else EmptyString); (if scores then score_part score_text d else EmptyString)].
Proof. exact (build_text_joined score_text d labels ids scores). Qed.
Print Assumptions C67_text.
Definition ex67_object : drawable := MkDrawable [[1; 2]; [5; 6]]%Q (Some 7) (LStr "car") (Some [1 # 2]%Q) [true; false].
Example ex67 : let f := build_text (fun _ => "0.5"%string) ex67_object in
  f true true true = "car-7-0.5"%string /\ f false true true = "7-0.5"%string /\ f true false true = "car-0.5"%string /\ f false false false = EmptyString.
Proof. vm_compute. auto. Qed.

(** C68: draw_points draws, object by object, one circle per shown point, and the text near the mean of the live
    points. *)
Theorem C68_draw_points hash_str rand score_text sh p a radius hide ds cs r :
  draw_points hash_str rand score_text sh p a radius hide None (Some ds) = (cs, Ret r) ->
  r = TheFrame /\ exists tc css, parse_opt (da_text_color a) = Ret tc /\ cs = concat css /\ length css = length ds /\
  forall k d ck, nth_error ds k = Some d -> nth_error css k = Some ck ->
    (forall c rad col t, In (Circle c rad col t) ck <->
       da_shape_on a = true /\ (hide = true -> has_live d) /\ rad = the_radius sh radius /\ t = point_thickness a /\
       object_color hash_str rand p (da_color a) k d = Ret col /\ exists row, shown hide d row /\ c = int_point row) /\
    (has_live d ->
     if da_labels a || da_ids a || da_scores a then
       exists x y col, mean_live d 0 x /\ mean_live d 1 y /\ object_color hash_str rand p (da_color a) k d = Ret col /\
       let R := inject_Z (the_radius sh radius) in
       filter is_text ck = drawn_text sh (build_text score_text d (da_labels a) (da_ids a) (da_scores a)) (trunc (x - R), trunc (y - R)) (da_text_size a)
            (match tc with Some c => c | None => col end) (da_text_thickness a)
     else filter is_text ck = []) /\
    texts_last ck.
Proof. exact (draw_points_spec hash_str rand score_text sh p a radius hide ds cs r). Qed.
Print Assumptions C68_draw_points.
(** It does not fail for valid colors. *)
(** The default sizes follow the largest of the height, the width and the number of channels of the frame. *)
Theorem C68_frame_size h w c : let m := max_shape (h, w, c) in (m = h \/ m = w \/ m = c)%Z /\ (h <= m /\ w <= m /\ c <= m)%Z.
Proof. exact (max_shape_largest h w c). Qed.
Print Assumptions C68_frame_size.
Theorem C68_total hash_str rand score_text sh p a radius hide ds : pa_colors p <> [] ->
  (forall c, da_color a = Fixed c -> exists v, parse_color c = Ret v) -> (forall c, da_text_color a = Some c -> exists v, parse_color c = Ret v) ->
  (forall d, In d ds -> length (dw_live d) = length (dw_points d)) ->
  exists cs, draw_points hash_str rand score_text sh p a radius hide None (Some ds) = (cs, Ret TheFrame).
Proof. exact (draw_points_total hash_str rand score_text sh p a radius hide ds). Qed.
Print Assumptions C68_total.
(** An object without live points leaves no trace when dead points are hidden. *)
Theorem C68_dead_object hash_str rand score_text sh p a radius color_by_label d before after :
  ~ has_live d -> match da_color a, color_by_label with Random, None => False | _, _ => True end ->
  draw_points hash_str rand score_text sh p a radius true color_by_label (Some (before ++ d :: after)) =
  draw_points hash_str rand score_text sh p a radius true color_by_label (Some (before ++ after)).
Proof. exact (draw_points_dead hash_str rand score_text sh p a radius color_by_label d before after). Qed.
Print Assumptions C68_dead_object.
(** For a tracked object the points are those of its estimate, live while their counters are positive, and the text
    has its label and its id; for a detection the points are its own, all of them live, and the text has its label and
    its scores. *)
Theorem C68_objects (FO : filter_ops QNum) (o : tobj FO) hide row :
  (shown hide (drawable_of_object o) row <-> exists i c, nth_error (estimate o) i = Some row /\ nth_error (o_point_hits o) i = Some c /\
     ((0 < c)%Z \/ hide = false)) /\
  (has_live (drawable_of_object o) <-> exists c, In c (o_point_hits o) /\ (0 < c)%Z) /\
  label_part (drawable_of_object o) = match oc_label (o_conf o) with LNone => EmptyString | l => label_str l end /\
  id_part (drawable_of_object o) = match o_id o with None => EmptyString | Some i => str_of_Z (Z.of_nat i) end /\
  (forall score_text, score_part score_text (drawable_of_object o) = EmptyString).
Proof. exact (object_drawn o hide row). Qed.
Print Assumptions C68_objects.
Theorem C68_detections (d : detection QNum) hide row :
  (shown hide (drawable_of_detection d) row <-> In row (d_points d)) /\
  (has_live (drawable_of_detection d) <-> d_points d <> []) /\
  label_part (drawable_of_detection d) = match d_label d with LNone => EmptyString | l => label_str l end /\
  id_part (drawable_of_detection d) = EmptyString /\
  (forall score_text, score_part score_text (drawable_of_detection d) = match d_scores d with None => EmptyString | Some s => score_text s end).
Proof. exact (detection_drawn d hide row). Qed.
Print Assumptions C68_detections.
(** Without objects nothing is drawn, but unlike draw_boxes the function returns None; and the deprecated argument
    color_by_label means color="by_label" whatever its value. *)
Theorem C68_refuted hash_str rand score_text sh p a radius hide ds b :
  draw_points hash_str rand score_text sh p a radius hide None None = ([], Ret Nothing) /\
  draw_points hash_str rand score_text sh p a radius hide (Some b) ds = draw_points hash_str rand score_text sh p (with_color ByLabel a) radius hide None ds.
Proof. exact (draw_points_quirks hash_str rand score_text sh p a radius hide ds b). Qed.
Print Assumptions C68_refuted.
(** The color of an object: by default, and with color="by_id", the color of the palette whose place is the id modulo
    the size of the palette; with color="by_label" a function of the label alone, and the same place for integer labels;
    without an id or a label the default color; otherwise the color given. *)
Theorem C68_colors hash_str rand p k k' d d' :
  (forall i, dw_id d = Some i -> (Z.of_nat i < hash_modulus)%Z -> forall c, In c [ById; ByNone] -> pa_colors p <> [] ->
     exists v, nth_error (pa_colors p) (i mod length (pa_colors p)) = Some v /\ object_color hash_str rand p c k d = Ret v) /\
  (dw_id d = None -> forall c, In c [ById; ByNone] -> object_color hash_str rand p c k d = Ret (pa_default p)) /\
  (dw_label d = dw_label d' -> object_color hash_str rand p ByLabel k d = object_color hash_str rand p ByLabel k' d') /\
  (dw_label d = LNone -> object_color hash_str rand p ByLabel k d = Ret (pa_default p)) /\
  (forall z, dw_label d = LInt z -> (0 <= z < hash_modulus)%Z -> pa_colors p <> [] ->
     exists v, nth_error (pa_colors p) (Z.to_nat z mod length (pa_colors p)) = Some v /\ object_color hash_str rand p ByLabel k d = Ret v) /\
  (forall c, object_color hash_str rand p (Fixed c) k d = parse_color c).
Proof. exact (object_colors hash_str rand p k k' d d'). Qed.
Print Assumptions C68_colors.
Example ex68_colors : object_color (fun _ => 0%Z) (fun _ => 0%Z) palette0 ById 0 ex67_object = Ret (127, 127, 127)%Z /\ nth_error (pa_colors palette0) (7 mod length (pa_colors palette0)) = Some (127, 127, 127)%Z.
Proof. vm_compute. split; reflexivity. Qed.
Definition ex68_args : draw_args := MkArgs ById None true true false true None None None.
Example ex68 : draw_points (fun _ => 0%Z) (fun _ => 0%Z) (fun _ => "0.5"%string) (1000, 2000, 3)%Z palette0 ex68_args None true None (Some [ex67_object]) =
  ([Circle [1; 2] 4 (127, 127, 127) (-1); PutText "car-7" (-2, -1) (2000 # 4000) (0, 0, 0) 1; PutText "car-7" (-3, -2) (2000 # 4000) (127, 127, 127) 1]%Z,
   Ret TheFrame).
Proof. vm_compute. reflexivity. Qed.

(** C69: draw_boxes draws, object by object, one rectangle between the first two points, and the text if it is not
    empty. *)
Theorem C69_draw_boxes hash_str rand score_text sh p a ds cs r :
  draw_boxes hash_str rand score_text sh p a None None (Some ds) = (cs, Ret r) ->
  r = TheFrame /\ exists tc css, parse_opt (da_text_color a) = Ret tc /\ cs = concat css /\ length css = length ds /\
  forall k d ck, nth_error ds k = Some d -> nth_error css k = Some ck ->
    exists col, object_color hash_str rand p (da_color a) k d = Ret col /\
    (forall p1 p2 c t, In (Rectangle p1 p2 c t) ck <-> da_shape_on a = true /\ t = box_thickness sh a /\ c = col /\
       exists r1 r2, nth_error (dw_points d) 0 = Some r1 /\ nth_error (dw_points d) 1 = Some r2 /\ p1 = int_point r1 /\ p2 = int_point r2) /\
    (let s := build_text score_text d (da_labels a) (da_ids a) (da_scores a) in
     (s = EmptyString -> filter is_text ck = []) /\
     (s <> EmptyString -> exists x y rest, nth_error (dw_points d) 0 = Some (x :: y :: rest) /\
        filter is_text ck = drawn_text sh s (trunc x - box_thickness sh a / 2, trunc y - box_thickness sh a / 2 - 1)%Z (da_text_size a) (match tc with Some c => c | None => col end) (da_text_thickness a))) /\
    texts_last ck.
Proof. exact (draw_boxes_spec hash_str rand score_text sh p a ds cs r). Qed.
Print Assumptions C69_draw_boxes.
Theorem C69_total hash_str rand score_text sh p a ds : pa_colors p <> [] ->
  (forall c, da_color a = Fixed c -> exists v, parse_color c = Ret v) -> (forall c, da_text_color a = Some c -> exists v, parse_color c = Ret v) ->
  (forall d, In d ds -> exists x y rest r2 rest2, dw_points d = (x :: y :: rest) :: r2 :: rest2) ->
  exists cs, draw_boxes hash_str rand score_text sh p a None None (Some ds) = (cs, Ret TheFrame).
Proof. exact (draw_boxes_total hash_str rand score_text sh p a ds). Qed.
Print Assumptions C69_total.
(** The deprecated arguments color_by_label and random_color mean color="by_label" and color="random" whatever their
    values, and the first one wins. *)
Theorem C69_refuted hash_str rand score_text sh p a ds b r :
  draw_boxes hash_str rand score_text sh p a r (Some b) ds = draw_boxes hash_str rand score_text sh p (with_color ByLabel a) None None ds /\
  draw_boxes hash_str rand score_text sh p a (Some b) None ds = draw_boxes hash_str rand score_text sh p (with_color Random a) None None ds.
Proof. exact (draw_boxes_quirks hash_str rand score_text sh p a ds b r). Qed.
Print Assumptions C69_refuted.
Example ex69 : draw_boxes (fun _ => 0%Z) (fun _ => 0%Z) (fun _ => "0.5"%string) (1000, 2000, 3)%Z palette0 ex68_args None None (Some [ex67_object]) =
  ([Rectangle [1; 2] [5; 6] (127, 127, 127) 4; PutText "car-7" (0, 0) (2000 # 4000) (0, 0, 0) 1; PutText "car-7" (-1, -1) (2000 # 4000) (127, 127, 127) 1]%Z,
   Ret TheFrame).
Proof. vm_compute. reflexivity. Qed.

(** C70: draw_absolute_grid draws a cross exactly at the grid points the camera sees. *)
Theorem C70_grid w h ct grid radius th col :
  let pts := match ct with None => grid | Some t => ct_abs_to_rel t grid end in
  forall c, In c (draw_absolute_grid w h ct grid radius th col) <->
  exists x y, In [x; y] pts /\ (0 <= x <= inject_Z w)%Q /\ (0 <= y <= inject_Z h)%Q /\
    (c = Line [trunc x; trunc y - radius]%Z [trunc x; trunc y + radius]%Z col th \/ c = Line [trunc x - radius; trunc y]%Z [trunc x + radius; trunc y]%Z col th).
Proof. exact (grid_spec w h ct grid radius th col). Qed.
Print Assumptions C70_grid.
Example ex70 : draw_absolute_grid 10 10 None [[5 # 2; 3]; [11; 3]]%Q 1 1 (0, 0, 0)%Z =
  [Line [2; 2] [2; 4] (0, 0, 0) 1; Line [1; 3] [3; 3] (0, 0, 0) 1]%Z.
Proof. vm_compute. reflexivity. Qed.

(** C71: AbsolutePaths remembers for every object exactly its last positions, most recent first. *)
Theorem C71_remembered n m calls : Forall (good_call m) calls ->
  exists h', absolute_run n calls [] = (h', Ret tt) /\ forall i, history h' i = firstn n (rev (trail i calls)).
Proof. exact (absolute_run_new n m calls). Qed.
Print Assumptions C71_remembered.
(** A call draws for every object with a live point circles at its points and one faint line per pair of consecutive
    remembered positions, all in the coordinates of the current frame. *)
Theorem C71_drawn n m calls t objs : Forall (good_call m) calls -> good_call m (Some t, objs) -> NoDup (map po_id (filter alive objs)) ->
  exists h h' st, absolute_run n calls [] = (h, Ret tt) /\ absolute_draw n (Some t) objs h = (h', (st, Ret tt)) /\
  st = flat_map (fun o => trace n (ct_abs_to_rel t) (firstn n (rev (trail (po_id o) calls))) o) (filter alive objs).
Proof. exact (absolute_drawn n m calls t objs). Qed.
Print Assumptions C71_drawn.
(** Older segments are fainter. *)
Theorem C71_fades n i j : i < j -> j < n -> ((1 # 100) <= nth j (alphas n) 0 /\ nth j (alphas n) 0 < nth i (alphas n) 0 /\ nth i (alphas n) 0 <= 99 # 100)%Q.
Proof. exact (alphas_fade n i j). Qed.
Print Assumptions C71_fades.
(** The weights go in equal steps from 0.99 for the newest to 0.01 for the oldest segment. *)
Theorem C71_weights n : (0 < n -> (nth 0 (alphas n) 0 == 99 # 100)%Q) /\ (1 < n -> (nth (n - 1) (alphas n) 0 == 1 # 100)%Q) /\
  (forall k, S (S k) < n -> (nth k (alphas n) 0 - nth (S k) (alphas n) 0 == nth (S k) (alphas n) 0 - nth (S (S k)) (alphas n) 0)%Q).
Proof. exact (alphas_even n). Qed.
Print Assumptions C71_weights.
(** With the default coord_transform the call fails as soon as there is something to draw. *)
Theorem C71_refuted n objs h : (exists o, In o objs /\ alive o = true) -> exists h' st, absolute_draw n None objs h = (h', (st, Raise EAttributeError)).
Proof. exact (absolute_default n objs h). Qed.
Print Assumptions C71_refuted.

(** Three calls, the camera moving to the right. *)
Definition ex71_object (x : Q) : path_object := MkPathObj [true] (Some 1) [[x; 0%Q]].
Definition ex71_camera (x : Q) : coord_transformation QNum := translation (N := QNum) [x; 0%Q].
Definition ex71_calls : list (option (coord_transformation QNum) * list path_object) := [(Some (ex71_camera 0), [ex71_object 1]); (Some (ex71_camera 1), [ex71_object 3])].
Example ex71 : Forall (good_call 1) ex71_calls /\
  snd (absolute_draw 2 (Some (ex71_camera 10)) [ex71_object 6] (fst (absolute_run 2 ex71_calls []))) =
  ([PCircle [16; 0]; POverlay [([16; 0], [13; 0])] (990000 # 1000000); POverlay [([13; 0], [11; 0])] (10000 # 1000000)]%Z, Ret tt).
Proof.
  split; [|vm_compute; reflexivity]. repeat constructor; (eexists; split; [reflexivity|split; [intros p; apply map_length|repeat constructor]]).
Qed.

(** C72: Paths shows at every pixel the color of the last circle drawn there, faded once per later call. *)
Theorem C72_paths disc att before f cs after y x c1 pc c2 out :
  cs = c1 ++ pc :: c2 -> disc (fst pc) y x = true -> (forall q, In q c2 -> disc (fst q) y x = false) -> later_clear disc after y x ->
  nth_error (masks disc att None (before ++ (f, cs) :: after)) (length before + length after) = Some out ->
  fst out y x = faded (1 - att) (length after) (color_pixel (snd pc)).
Proof. exact (fun A B C D => masks_touched disc att before None f cs after y x c1 pc c2 A B C D out). Qed.
Print Assumptions C72_paths.
Theorem C72_untouched disc att video y x k out : later_clear disc video y x -> nth_error (masks disc att None video) k = Some out -> fst out y x = [0; 0; 0]%Z.
Proof. exact (fun A => masks_black disc att video None y x A Logic.I k out). Qed.
Print Assumptions C72_untouched.
(** The mask is added to the frame, pixel by pixel, up to 255; where nothing was drawn the frame is unchanged. *)
Theorem C72_frame disc att video k f cs out : nth_error video k = Some (f, cs) -> nth_error (masks disc att None video) k = Some out ->
  forall y x, snd out y x = lit_pixel (fst out y x) (f y x) /\
  (later_clear disc video y x -> forall b g r, f y x = [b; g; r] -> byte b -> byte g -> byte r -> snd out y x = f y x).
Proof. exact (masks_frame_all disc att video k f cs out). Qed.
Print Assumptions C72_frame.
Definition ex72_disc (p : position) (y x : Z) : bool := match p with [a; b] => (a =? x)%Z && (b =? y)%Z | _ => false end.
Example ex72 :
  map (fun r => (fst r 0%Z 1%Z, snd r 0%Z 1%Z))
    (masks ex72_disc (1 # 2) None [(fun _ _ => [9; 9; 9], [([1; 0], (200, 100, 50))]); (fun _ _ => [200; 9; 9], [([2; 0], (1, 2, 3))])]%Z) =
  [([200; 100; 50], [209; 109; 59]); ([100; 50; 25], [255; 59; 34])]%Z.
Proof. vm_compute. reflexivity. Qed.

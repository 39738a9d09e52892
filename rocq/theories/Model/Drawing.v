(** norfair/drawing: what is drawn.  OpenCV's drawing functions are not modelled: the result is the list of calls
    made, in order. *)
From Coq Require Import ZArith QArith Qround Qabs Bool Arith String List.
From Verif Require Import Model.Num Model.Base Model.Filter Model.Tracker Model.CameraMotion Model.Images Model.Strings Model.Color.
Import ListNotations.
Local Open Scope nat_scope.

(** [tuple(point.astype(int))] *)
Definition position := list Z.
Definition int_point (row : list Q) : position := map trunc row.

(** Calls of cv2.circle, cv2.rectangle, cv2.line and cv2.putText. *)
Inductive call :=
| Circle (center : position) (radius : Z) (color : bgr) (thickness : Z)
| Rectangle (p1 p2 : position) (color : bgr) (thickness : Z)
| Line (p1 p2 : position) (color : bgr) (thickness : Z)
| PutText (text : string) (org : Z * Z) (size : Q) (color : bgr) (thickness : Z).

(** drawer.py:326-363 [Drawable] *)
Record drawable := MkDrawable {
  dw_points : points QNum; dw_id : option nat; dw_label : label; dw_scores : option (list Q); dw_live : list bool }.
Definition drawable_of_detection (d : detection QNum) : drawable :=
  MkDrawable (d_points d) None (d_label d) (d_scores d) (repeat true (length (d_points d))).
Definition drawable_of_object {FO : filter_ops QNum} (o : tobj FO) : drawable :=
  MkDrawable (estimate o) (o_id o) (oc_label (o_conf o)) None (live_points o).

(** (height, width, channels) *)
Definition shape := (Z * Z * Z)%type.
Definition max_shape (s : shape) : Z := let '(h, w, c) := s in Z.max (Z.max h w) c.

(** drawing/utils.py:16-28 [_build_text]; [score_text] is [str(np.round(np.mean(scores), 4))]. *)
Definition build_text (score_text : list Q -> string) (d : drawable) (draw_labels draw_ids draw_scores : bool) : string :=
  let t0 := EmptyString in
  let t1 := if draw_labels then match dw_label d with LNone => t0 | l => label_str l end else t0 in
  let t2 := if draw_ids then
              match dw_id d with
              | None => t1
              | Some i => ((if (0 <? slen t1)%nat then t1 ++ "-" else t1) ++ str_of_Z (Z.of_nat i))%string
              end
            else t1 in
  if draw_scores then
    match dw_scores d with
    | None => t2
    | Some sc => ((if (0 <? slen t2)%nat then t2 ++ "-" else t2) ++ score_text sc)%string
    end
  else t2.

(** drawer.py:68-142 [Drawer.text]: the shadow and the text. *)
Definition drawer_text (sh : shape) (text : string) (pos : Z * Z) (size : option Q) (color : bgr) (thickness : option Z) : list call :=
  let size := match size with Some s => s | None =>
    let s := (inject_Z (max_shape sh) / 4000)%Q in
    let s := if Qle_bool (1 # 2) s then s else (1 # 2)%Q in if Qle_bool s (3 # 2) then s else (3 # 2)%Q end in
  let th := match thickness with Some t => t | None => (round_half_even size + 1)%Z end in
  let anchor := (fst pos + th / 2, snd pos - th / 2)%Z in
  [PutText text (fst anchor + 1, snd anchor + 1)%Z size (0, 0, 0)%Z th; PutText text anchor size color th].

(** How the color of an object is chosen. *)
Inductive color_arg := ByNone | ById | ByLabel | Random | Fixed (c : color_like).
Section Draw.
(** [hash] of a label (of strings it differs between processes), the hashes of the random numbers drawn, and the text
    of scores. *)
Context (hash_str : string -> Z) (rand : nat -> Z) (score_text : list Q -> string).
Definition hash_label (l : label) : option Z :=
  match l with LNone => None | LInt z => Some (hash_int z) | LStr s => Some (hash_str s) end.
Definition hash_id (i : option nat) : option Z := option_map (fun n => hash_int (Z.of_nat n)) i.

(** draw_points.py:137-144, draw_boxes.py:140-147; [k] is the number of the object. *)
Definition object_color (p : palette) (color : color_arg) (k : nat) (d : drawable) : result bgr :=
  match color with
  | ByNone | ById => choose_color p (hash_id (dw_id d))
  | ByLabel => choose_color p (hash_label (dw_label d))
  | Random => choose_color p (Some (rand k))
  | Fixed c => parse_color c
  end.

(** [points[mask].mean(axis=0)]: [None] stands for NaN (no point selected). *)
Definition select {A} (mask : list bool) (l : list A) : list A := map snd (filter fst (combine mask l)).
Definition qsum (l : list Q) : Q := fold_right Qplus 0%Q l.
Definition column_means (ps : list (list Q)) : option (Q * Q) :=
  match ps with
  | [] => None
  | _ => let n := inject_Z (Z.of_nat (length ps)) in
         Some (qsum (map (fun r => nth 0 r 0%Q) ps) / n, qsum (map (fun r => nth 1 r 0%Q) ps) / n)%Q
  end.

(** The arguments shared by both functions. *)
Record draw_args := MkArgs {
  da_color : color_arg; da_thickness : option Z; da_labels : bool; da_ids : bool; da_scores : bool; da_shape_on : bool;
  da_text_color : option color_like; da_text_size : option Q; da_text_thickness : option Z }.

(** draw_points.py:128-176, one object.  [None] for the text position: converting NaN to int, unspecified. *)
Definition points_of_object (sh : shape) (p : palette) (a : draw_args) (text_color : option bgr) (radius thickness : Z) (hide : bool) (k : nat)
    (d : drawable) : list call * result unit :=
  if hide && negb (existsb (fun b => b) (dw_live d)) then ([], Ret tt)
  else
    match object_color p (da_color a) k d with
    | Raise e => ([], Raise e)
    | Ret col =>
      let tcol := match text_color with Some c => c | None => col end in
      let circles :=
        if da_shape_on a then
          map (fun pl => Circle (int_point (fst pl)) radius col thickness)
            (filter (fun pl => snd pl || negb hide) (combine (dw_points d) (dw_live d)))
        else [] in
      if da_labels a || da_ids a || da_scores a then
        if Nat.eqb (length (dw_live d)) (length (dw_points d)) then
          let text := build_text score_text d (da_labels a) (da_ids a) (da_scores a) in
          match column_means (select (dw_live d) (dw_points d)) with
          | None => (circles, Ret tt)
          | Some (x, y) =>
            let pos := (trunc (x - inject_Z radius), trunc (y - inject_Z radius)) in
            (circles ++ drawer_text sh text pos (da_text_size a) tcol (da_text_thickness a), Ret tt)
          end
        else (circles, Raise EIndexError)
      else (circles, Ret tt)
    end.
Fixpoint each (f : nat -> drawable -> list call * result unit) (k : nat) (ds : list drawable) : list call * result unit :=
  match ds with
  | [] => ([], Ret tt)
  | d :: ds' =>
    match f k d with
    | (cs, Raise e) => (cs, Raise e)
    | (cs, Ret _) => let '(cs', r) := each f (S k) ds' in (cs ++ cs', r)
    end
  end.
(** The result: the frame or None. *)
Inductive returned := TheFrame | Nothing.
Definition parse_opt (c : option color_like) : result (option bgr) :=
  match c with None => Ret None | Some c => match parse_color c with Ret v => Ret (Some v) | Raise e => Raise e end end.

(** draw_points.py:13-178 [draw_points]; [color_by_label] is the deprecated parameter. *)
Definition draw_points (sh : shape) (p : palette) (a : draw_args) (radius : option Z) (hide : bool) (color_by_label : option bool)
    (ds : option (list drawable)) : list call * result returned :=
  match ds with
  | None => ([], Ret Nothing)
  | Some ds =>
    match parse_opt (da_text_color a) with
    | Raise e => ([], Raise e)
    | Ret tc =>
      let a := match color_by_label with
               | None => a
               | Some _ => MkArgs ByLabel (da_thickness a) (da_labels a) (da_ids a) (da_scores a) (da_shape_on a) (da_text_color a)
                             (da_text_size a) (da_text_thickness a)
               end in
      let thickness := match da_thickness a with Some t => t | None => (-1)%Z end in
      let radius := match radius with Some r => r | None =>
        let q := (inject_Z (max_shape sh) * (2 # 1000))%Q in round_half_even (if Qle_bool 1 q then q else 1%Q) end in
      match each (points_of_object sh p a tc radius thickness hide) 0 ds with
      | (cs, Ret _) => (cs, Ret TheFrame)
      | (cs, Raise e) => (cs, Raise e)
      end
    end
  end.

(** draw_boxes.py:134-179, one object. *)
Definition box_of_object (sh : shape) (p : palette) (a : draw_args) (text_color : option bgr) (thickness : Z) (k : nat) (d : drawable)
  : list call * result unit :=
  match object_color p (da_color a) k d with
  | Raise e => ([], Raise e)
  | Ret col =>
    let pts := map int_point (dw_points d) in
    match (if da_shape_on a then
             match nth_error pts 0, nth_error pts 1 with
             | Some p1, Some p2 => Ret [Rectangle p1 p2 col thickness]
             | _, _ => Raise EIndexError
             end
           else Ret []) with
    | Raise e => ([], Raise e)
    | Ret cs =>
      let text := build_text score_text d (da_labels a) (da_ids a) (da_scores a) in
      if (0 <? slen text)%nat then
        match nth_error pts 0 with
        | Some (x :: y :: _) =>
          let pos := (x - thickness / 2, y - thickness / 2 - 1)%Z in
          (cs ++ drawer_text sh text pos (da_text_size a) (match text_color with Some c => c | None => col end) (da_text_thickness a), Ret tt)
        | _ => (cs, Raise EIndexError)
        end
      else (cs, Ret tt)
    end
  end.
(** draw_boxes.py:12-181 [draw_boxes]; [random_color] and [color_by_label] are deprecated parameters. *)
Definition draw_boxes (sh : shape) (p : palette) (a : draw_args) (random_color color_by_label : option bool) (ds : option (list drawable))
  : list call * result returned :=
  match ds with
  | None => ([], Ret TheFrame)
  | Some ds =>
    match parse_opt (da_text_color a) with
    | Raise e => ([], Raise e)
    | Ret tc =>
      let color := match color_by_label, random_color with Some _, _ => ByLabel | None, Some _ => Random | None, None => da_color a end in
      let a := MkArgs color (da_thickness a) (da_labels a) (da_ids a) (da_scores a) (da_shape_on a) (da_text_color a) (da_text_size a) (da_text_thickness a) in
      let thickness := match da_thickness a with Some t => t | None => (max_shape sh / 500)%Z end in
      match each (box_of_object sh p a tc thickness) 0 ds with
      | (cs, Ret _) => (cs, Ret TheFrame)
      | (cs, Raise e) => (cs, Raise e)
      end
    end
  end.

(** draw_points.py:189-229 [draw_tracked_objects] (deprecated; [shape[0]] is the height); it returns nothing. *)
Definition draw_tracked_objects (sh : shape) (p : palette) (objects : option (list drawable)) (radius : option Z) (color : color_arg)
    (id_size : option Q) (id_thickness : option Z) (draw_points_ color_by_label draw_labels : bool) (label_size : option Q) : list call * result returned :=
  let scale := (inject_Z (fst (fst sh)) / 100)%Q in
  let radius := match radius with Some r => r | None => trunc (scale * (1 # 2)) end in
  let id_size := match id_size with Some s => s | None => (scale / 10)%Q end in
  let id_thickness := match id_thickness with Some t => t | None => trunc (scale / 5)%Q end in
  let label_size := match label_size with Some s => s | None => inject_Z (trunc (if Qle_bool 1 (scale / 100) then scale / 100 else 1)%Q) end in
  let text_size := if Qeq_bool label_size 0 then id_size else label_size in
  match draw_points sh p (MkArgs (if color_by_label then ByLabel else color) None draw_labels (negb (Qle_bool id_size 0)) false draw_points_ None (Some text_size) (Some id_thickness))
          (Some radius) true None objects with
  | (cs, Ret _) => (cs, Ret Nothing)
  | r => r
  end.

(** draw_boxes.py:184-209 [draw_tracked_boxes] (deprecated). *)
Definition draw_tracked_boxes (sh : shape) (p : palette) (objects : option (list drawable)) (border_colors : color_arg) (border_width : option Z)
    (id_size : option Q) (id_thickness : option Z) (draw_box color_by_label draw_labels : bool) (label_size : option Q) (label_width : option Z) : list call * result returned :=
  let truthy (s : option Q) := match s with Some q => negb (Qeq_bool q 0) | None => false end in
  draw_boxes sh p (MkArgs (if color_by_label then ByLabel else border_colors) border_width draw_labels
                     (match id_size with Some s => negb (Qle_bool s 0) | None => false end) false draw_box None
                     (if truthy label_size then label_size else id_size)
                     (match id_thickness with Some t => if (t =? 0)%Z then label_width else Some t | None => label_width end))
    None None objects.
End Draw.

(* ------------------------------------------------------------------------------------------ *)
(** ** draw_absolute_grid *)

(** drawer.py:178-224 [Drawer.cross] *)
Definition cross (c : Z * Z) (radius : Z) (color : bgr) (thickness : Z) : list call :=
  let '(x, y) := c in
  [Line [x; y - radius]%Z [x; y + radius]%Z color thickness; Line [x - radius; y]%Z [x + radius; y]%Z color thickness].
(** absolute_grid.py:84-103; [grid] is the result of [_get_grid] (Model/Grid.v), points are rows (x, y). *)
Definition draw_absolute_grid (w h : Z) (ct : option (coord_transformation QNum)) (grid : points QNum) (radius thickness : Z) (color : bgr) : list call :=
  let pts := match ct with None => grid | Some t => ct_abs_to_rel t grid end in
  flat_map (fun r =>
    match r with
    | [x; y] =>
      if Qle_bool x (inject_Z w) && Qle_bool y (inject_Z h) && Qle_bool 0 x && Qle_bool 0 y
      then cross (trunc x, trunc y) radius color thickness else []
    | _ => []
    end) pts.

(* ------------------------------------------------------------------------------------------ *)
(** ** AbsolutePaths *)

(** An object as AbsolutePaths sees it: live points, id, and the points to draw in absolute coordinates
    ([get_points_to_draw(obj.get_estimate(absolute=True))]). *)
Record path_object := MkPathObj { po_live : list bool; po_id : option nat; po_points : points QNum }.
(** One step of drawing: a circle on the frame, or an overlay with lines blended in with weight alpha. *)
Inductive path_step := PCircle (center : position) | POverlay (lines : list (position * position)) (alpha : Q).
(** [past_points]: a defaultdict from ids to histories, most recent first. *)
Definition histories := list (option nat * list (points QNum)).
Definition eq_id (a b : option nat) : bool := match a, b with Some x, Some y => Nat.eqb x y | None, None => true | _, _ => false end.
Fixpoint history (h : histories) (i : option nat) : list (points QNum) :=
  match h with [] => [] | (j, l) :: h' => if eq_id j i then l else history h' i end.
Fixpoint set_history (h : histories) (i : option nat) (l : list (points QNum)) : histories :=
  match h with [] => [(i, l)] | (j, l') :: h' => if eq_id j i then (j, l) :: h' else (j, l') :: set_history h' i l end.

(** path.py:185 [np.linspace(0.99, 0.01, max_history)] *)
Definition alphas (n : nat) : list Q :=
  map (fun i => if Nat.eqb n 1 then (99 # 100)%Q
                else ((99 # 100) + inject_Z (Z.of_nat i) * ((1 # 100) - (99 # 100)) / inject_Z (Z.of_nat n - 1))%Q) (seq 0 n).

(** path.py:217-225: the lines of one past position; [last[j]] may be out of range. *)
Fixpoint lines_between (last pts : points QNum) : result (list (position * position)) :=
  match pts with
  | [] => Ret []
  | q :: pts' =>
    match last with
    | [] => Raise EIndexError
    | l :: last' =>
      match lines_between last' pts' with Ret ls => Ret ((int_point l, int_point q) :: ls) | Raise e => Raise e end
    end
  end.
(** path.py:214-229: the loop over the history; [i] is the index of the weight. *)
Fixpoint overlays (f : points QNum -> points QNum) (als : list Q) (i : nat) (last : points QNum) (past : list (points QNum)) : list path_step * result unit :=
  match past with
  | [] => ([], Ret tt)
  | q :: past' =>
    match lines_between (f last) (f q) with
    | Raise e => ([], Raise e)
    | Ret ls =>
      match nth_error als i with
      | None => ([], Raise EIndexError)
      | Some a => let '(st, r) := overlays f als (S i) q past' in (POverlay ls a :: st, r)
      end
    end
  end.
(** path.py:187-232 [AbsolutePaths.draw]; colors, radius and thickness are left out.  [ct = None] is the default
    argument: [None.abs_to_rel] raises AttributeError. *)
Fixpoint absolute_draw (n : nat) (ct : option (coord_transformation QNum)) (objs : list path_object) (h : histories)
  : histories * (list path_step * result unit) :=
  match objs with
  | [] => (h, ([], Ret tt))
  | o :: objs' =>
    if negb (existsb (fun b => b) (po_live o)) then absolute_draw n ct objs' h
    else
      match ct with
      | None => (h, ([], Raise EAttributeError))
      | Some t =>
        let f := ct_abs_to_rel t in
        let circles := map (fun q => PCircle (int_point q)) (f (po_points o)) in
        match overlays f (alphas n) 0 (po_points o) (history h (po_id o)) with
        | (st, Raise e) => (h, (circles ++ st, Raise e))
        | (st, Ret _) =>
          let h' := set_history h (po_id o) (firstn n (po_points o :: history h (po_id o))) in
          let '(h2, (st2, r)) := absolute_draw n ct objs' h' in (h2, (circles ++ st ++ st2, r))
        end
      end
  end.

(* ------------------------------------------------------------------------------------------ *)
(** ** Paths *)

(** The mask by position; [disc] is the set of pixels cv2.circle paints (radius and thickness are fixed). *)
Definition canvas := Z -> Z -> pixel.
Definition paint (disc : position -> Z -> Z -> bool) (m : canvas) (pc : position * bgr) : canvas :=
  fun y x => if disc (fst pc) y x then let '(b, g, r) := snd pc in [b; g; r] else m y x.
(** path.py:87-122 [Paths.draw]: fade the mask, paint the circles, and add it to the frame (cv2.addWeighted with both
    weights 1 saturates at 255).  The mask starts black. *)
Definition paths_mask (disc : position -> Z -> Z -> bool) (factor : Q) (m : option canvas) (circles : list (position * bgr)) : canvas :=
  let m0 : canvas := match m with Some m => m | None => fun _ _ => [0; 0; 0]%Z end in
  fold_left (paint disc) circles (fun y x => map (fade factor) (m0 y x)).
Fixpoint add_pixels (a b : pixel) : pixel :=
  match a, b with x :: a', y :: b' => Z.min 255 (x + y) :: add_pixels a' b' | _, _ => [] end.
Definition paths_draw (disc : position -> Z -> Z -> bool) (attenuation : Q) (m : option canvas) (frame : canvas) (circles : list (position * bgr))
  : canvas * canvas :=
  let m' := paths_mask disc (1 - attenuation) m circles in (m', fun y x => add_pixels (m' y x) (frame y x)).

(** Vocabulary for colors and drawings. *)
From Coq Require Import ZArith QArith Qminmax Bool Ascii String List.
From Verif Require Import Model.Num Model.Base Model.Filter Model.Tracker Model.CameraMotion Model.Images Model.Strings Model.Color Model.Drawing.
Import ListNotations.
Local Open Scope nat_scope.

(* ---- colors ---- *)
Definition digit16 (n : Z) : string :=
  nth (Z.to_nat n) ["0"; "1"; "2"; "3"; "4"; "5"; "6"; "7"; "8"; "9"; "a"; "b"; "c"; "d"; "e"; "f"]%string EmptyString.
(** #rrggbb and #rgb *)
Definition hex6 (r g b : Z) : string :=
  ("#" ++ digit16 (r / 16) ++ digit16 (r mod 16) ++ digit16 (g / 16) ++ digit16 (g mod 16) ++ digit16 (b / 16) ++ digit16 (b mod 16))%string.
Definition hex3 (r g b : Z) : string := ("#" ++ digit16 r ++ digit16 g ++ digit16 b)%string.
Definition byte (v : Z) : Prop := (0 <= v < 256)%Z.
Definition nibble (v : Z) : Prop := (0 <= v < 16)%Z.
Definition byte_color (c : bgr) : Prop := let '(b, g, r) := c in byte b /\ byte g /\ byte r.

(* ---- draw_points, draw_boxes ---- *)
(** The parts of a text that are not empty, joined by "-". *)
Definition joined (parts : list string) : string := String.concat "-"%string (filter (fun s => negb (String.eqb s EmptyString)) parts).
Definition label_part (d : drawable) : string := match dw_label d with LNone => EmptyString | l => label_str l end.
Definition id_part (d : drawable) : string := match dw_id d with None => EmptyString | Some i => str_of_Z (Z.of_nat i) end.
Definition score_part (score_text : list Q -> string) (d : drawable) : string := match dw_scores d with None => EmptyString | Some s => score_text s end.

(** Point [row] of [d] is shown. *)
Definition shown (hide : bool) (d : drawable) (row : list Q) : Prop :=
  exists i, nth_error (dw_points d) i = Some row /\ (nth_error (dw_live d) i = Some true \/ (hide = false /\ nth_error (dw_live d) i = Some false)).
Definition has_live (d : drawable) : Prop := In true (dw_live d).
(** Two pixels added channel by channel, at most 255. *)
Definition lit (v w : Z) : Z := if (255 <? v + w)%Z then 255%Z else (v + w)%Z.
Definition lit_pixel (a b : pixel) : pixel := map (fun vw => lit (fst vw) (snd vw)) (combine a b).
(** The mean of the live points in one coordinate. *)
Definition mean_live (d : drawable) (coordinate : nat) (m : Q) : Prop :=
  let l := select (dw_live d) (dw_points d) in
  l <> [] /\ (m * inject_Z (Z.of_nat (length l)) == fold_right Qplus 0 (map (fun r => nth coordinate r 0) l))%Q.

Definition is_text (c : call) : bool := match c with PutText _ _ _ _ _ => true | _ => false end.
(** The radius and thickness of the circles and the thickness of the boxes, by default depending on the frame. *)
Definition the_radius (sh : shape) (radius : option Z) : Z :=
  match radius with Some r => r | None => let q := (inject_Z (max_shape sh) * (2 # 1000))%Q in round_half_even (if Qle_bool 1 q then q else 1%Q) end.
Definition point_thickness (a : draw_args) : Z := match da_thickness a with Some t => t | None => (-1)%Z end.
Definition box_thickness (sh : shape) (a : draw_args) : Z := match da_thickness a with Some t => t | None => (max_shape sh / 500)%Z end.

(** A text: first its shadow, black and one pixel below and to the right, then the text itself, above [pos] and to its
    right by half the thickness. By default the size follows that of the frame, between 1/2 and 3/2, and the thickness
    follows the size. *)
Definition drawn_text (sh : shape) (text : string) (pos : Z * Z) (size : option Q) (color : bgr) (thickness : option Z) : list call :=
  let z := match size with Some z => z | None => Qmin (Qmax (inject_Z (max_shape sh) / 4000) (1 # 2)) (3 # 2) end in
  let t := match thickness with Some t => t | None => round_half_even z + 1 end%Z in
  let (x, y) := pos in
  [PutText text (x + t / 2 + 1, y - t / 2 + 1)%Z z (0, 0, 0)%Z t; PutText text (x + t / 2, y - t / 2)%Z z color t].
(** Shapes come before texts. *)
Definition texts_last (cs : list call) : Prop := cs = filter (fun c => negb (is_text c)) cs ++ filter is_text cs.

(** The same arguments with another color. *)
Definition with_color (c : color_arg) (a : draw_args) : draw_args :=
  MkArgs c (da_thickness a) (da_labels a) (da_ids a) (da_scores a) (da_shape_on a) (da_text_color a) (da_text_size a) (da_text_thickness a).

(* ---- AbsolutePaths ---- *)
Definition alive (o : path_object) : bool := existsb (fun b => b) (po_live o).
(** The positions of object [i] in the given drawing calls, oldest first. *)
Definition trail (i : option nat) (calls : list (option (coord_transformation QNum) * list path_object)) : list (points QNum) :=
  flat_map (fun c => map po_points (filter (fun o => alive o && eq_id (po_id o) i) (snd c))) calls.
(** Consecutive calls. *)
Fixpoint absolute_run (n : nat) (calls : list (option (coord_transformation QNum) * list path_object)) (h : histories) : histories * result unit :=
  match calls with
  | [] => (h, Ret tt)
  | (ct, objs) :: calls' =>
    match absolute_draw n ct objs h with
    | (h', (_, Ret _)) => absolute_run n calls' h'
    | (h', (_, Raise e)) => (h', Raise e)
    end
  end.
(** Consecutive elements of a list, with their number. *)
Fixpoint consecutive {A} (k : nat) (l : list A) : list (nat * (A * A)) :=
  match l with a :: ((b :: _) as l') => (k, (a, b)) :: consecutive (S k) l' | _ => [] end.
(** What is drawn for one object whose past positions are [past]. *)
Definition trace (n : nat) (f : points QNum -> points QNum) (past : list (points QNum)) (o : path_object) : list path_step :=
  map (fun q => PCircle (int_point q)) (f (po_points o)) ++
  map (fun kab => POverlay (combine (map int_point (f (fst (snd kab)))) (map int_point (f (snd (snd kab))))) (nth (fst kab) (alphas n) 0%Q))
      (consecutive 0 (po_points o :: past)).

(** At most [n] past positions per object, each of [m] points. *)
Definition good_histories (n m : nat) (h : histories) : Prop := forall i, length (history h i) <= n /\ Forall (fun p => length p = m) (history h i).
(** A call with a transformation that keeps the number of points, for objects of [m] points. *)
Definition good_call (m : nat) (c : option (coord_transformation QNum) * list path_object) : Prop :=
  exists t, fst c = Some t /\ (forall p, length (ct_abs_to_rel t p) = length p) /\ Forall (fun o => alive o = true -> length (po_points o) = m) (snd c).

(* ---- Paths ---- *)
Definition color_pixel (c : bgr) : pixel := let '(b, g, r) := c in [b; g; r].
Fixpoint masks (disc : position -> Z -> Z -> bool) (attenuation : Q) (m : option canvas) (video : list (canvas * list (position * bgr))) : list (canvas * canvas) :=
  match video with
  | [] => []
  | (frame, circles) :: video' =>
    let r := paths_draw disc attenuation m frame circles in r :: masks disc attenuation (Some (fst r)) video'
  end.
(** No circle of these frames touches the pixel. *)
Definition later_clear (disc : position -> Z -> Z -> bool) (after : list (canvas * list (position * bgr))) (y x : Z) : Prop :=
  forall f cs q, In (f, cs) after -> In q cs -> disc (fst q) y x = false.

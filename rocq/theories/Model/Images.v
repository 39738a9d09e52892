(** Python slices, numpy images and norfair/drawing/fixed_camera.py, norfair/utils.py:get_cutout. *)
From Coq Require Import ZArith QArith Qround Bool Arith List.
From Verif Require Import Model.Num Model.Base Model.Tracker Model.CameraMotion.
Import ListNotations.
Local Open Scope nat_scope.

(* ------------------------------------------------------------------------------------------ *)
(** ** Python sequences *)

(** Where a slice bound [i] falls in a sequence of length [n]: negative bounds count from the end and
    everything is clipped to 0..n. *)
Definition clamp_index (n : nat) (i : Z) : nat :=
  if (i <? 0)%Z then Z.to_nat (i + Z.of_nat n) else Nat.min (Z.to_nat i) n.

(** [l[a:b]], [l[:b]] and [l[a:]]. *)
Definition slice {A} (a b : Z) (l : list A) : list A :=
  let s := clamp_index (length l) a in let e := clamp_index (length l) b in firstn (e - s) (skipn s l).
Definition slice_to {A} (b : Z) (l : list A) : list A := slice 0 b l.
Definition slice_from {A} (a : Z) (l : list A) : list A := slice a (Z.of_nat (length l)) l.

(** [l[a:b] = v] for numpy arrays: the lengths have to agree.
    SIMPLIFICATION: numpy also accepts a [v] of length 1 (broadcasting); here that is an error too. *)
Definition assign_slice {A} (a b : Z) (v l : list A) : option (list A) :=
  let s := clamp_index (length l) a in let e := clamp_index (length l) b in
  if Nat.eqb (length v) (e - s) then Some (firstn s l ++ v ++ skipn (s + (e - s)) l) else None.

(** [np.round] and Python's [round]: halves go to the even neighbour. *)
Definition round_half_even (q : Q) : Z :=
  let f := Qfloor q in
  match (q - inject_Z f ?= 1 # 2)%Q with
  | Lt => f
  | Gt => (f + 1)%Z
  | Eq => if Z.even f then f else (f + 1)%Z
  end.

(** [int(x)] and [.astype(int)]: truncation towards zero. *)
Definition trunc (q : Q) : Z := if Qle_bool 0 q then Qfloor q else Qceiling q.

(* ------------------------------------------------------------------------------------------ *)
(** ** Images *)

(** An array of shape (im_h, im_w, channels); a pixel is the list of its channels. *)
Definition pixel := list Z.
Record image := MkImage { im_h : nat; im_w : nat; im_rows : list (list pixel) }.

(** [np.zeros([h, w, channels])]. *)
Definition black (h w channels : nat) : image := MkImage h w (repeat (repeat (repeat 0%Z channels) w) h).

(** [(image * factor).astype("uint8")]. *)
Definition fade (factor : Q) (v : Z) : Z := trunc (inject_Z v * factor).
Definition fade_image (factor : Q) (im : image) : image :=
  MkImage (im_h im) (im_w im) (map (map (map (fade factor))) (im_rows im)).

(** [image[y0:y1, x0:x1]]. *)
Definition crop (y0 y1 x0 x1 : Z) (im : image) : list (list pixel) := map (slice x0 x1) (slice y0 y1 (im_rows im)).

(** Assign the rows of [src] to columns x0:x1 of the rows of [dst]. *)
Fixpoint assign_rows (x0 x1 : Z) (src dst : list (list pixel)) : option (list (list pixel)) :=
  match src, dst with
  | [], [] => Some []
  | v :: src', row :: dst' =>
    match assign_slice x0 x1 v row, assign_rows x0 x1 src' dst' with
    | Some row', Some dst'' => Some (row' :: dst'')
    | _, _ => None
    end
  | _, _ => None
  end.
(** [image[y0:y1, x0:x1, :] = src]. *)
Definition paste (y0 y1 x0 x1 : Z) (src : list (list pixel)) (im : image) : option image :=
  match assign_rows x0 x1 src (slice y0 y1 (im_rows im)) with
  | None => None
  | Some part => option_map (MkImage (im_h im) (im_w im)) (assign_slice y0 y1 part (im_rows im))
  end.

(* ------------------------------------------------------------------------------------------ *)
(** ** FixedCamera *)

(** fixed_camera.py:54-57 *)
Record fixed_camera := MkFC { fc_scale : Q; fc_factor : Q; fc_background : option image }.
Definition fc_new (scale attenuation : Q) : fixed_camera := MkFC scale (1 - attenuation) None.

(** fixed_camera.py:78-95: the background before the frame is drawn.  [channels] is [frame.shape[-1]].
    SIMPLIFICATION: frames are uint8 with three axes. *)
Definition fc_start (c : fixed_camera) (channels : nat) (frame : image) : result image :=
  match fc_background c with
  | Some b => Ret (fade_image (fc_factor c) b)
  | None =>
    let w := round_half_even (inject_Z (Z.of_nat (im_w frame)) * fc_scale c) in
    let h := round_half_even (inject_Z (Z.of_nat (im_h frame)) * fc_scale c) in
    if (w <? 0)%Z || (h <? 0)%Z then Raise EValueError
    else Ret (black (Z.to_nat h) (Z.to_nat w) channels)
  end.

(** fixed_camera.py:97-104: where the top left corner of the frame comes to lie on the background ([y], [x]).
    SIMPLIFICATION: [None] for a transformation that does not return one point with two coordinates. *)
Definition frame_corner (b frame : image) (t : coord_transformation QNum) : option (Z * Z) :=
  let H := Z.of_nat (im_h frame) in let W := Z.of_nat (im_w frame) in
  let BH := Z.of_nat (im_h b) in let BW := Z.of_nat (im_w b) in
  let top := (BH / 2 - H / 2)%Z in let left := (BW / 2 - W / 2)%Z in
  match ct_rel_to_abs t [[inject_Z left : QNum; inject_Z top : QNum]] with
  | [[x; y]] => Some (round_half_even y, round_half_even x)
  | _ => None
  end.
(** fixed_camera.py:114-119: the frame does not fit. *)
Definition leaves_canvas (b frame : image) (y0 x0 : Z) : bool :=
  (y0 <? 0)%Z || (x0 <? 0)%Z || (Z.of_nat (im_h b) <? y0 + Z.of_nat (im_h frame))%Z || (Z.of_nat (im_w b) <? x0 + Z.of_nat (im_w frame))%Z.
(** fixed_camera.py:120-122: whether the call asks [warn_once] for the warning. *)
Definition adjust_warns (c : fixed_camera) (channels : nat) (frame : image) (ct : option (coord_transformation QNum)) : bool :=
  match fc_start c channels frame, ct with
  | Ret b, Some t => match frame_corner b frame t with Some (y0, x0) => leaves_canvas b frame y0 x0 | None => false end
  | _, _ => false
  end.
(** fixed_camera.py:59-140 [FixedCamera.adjust_frame].  [None] for the transformation raises AttributeError
    ([None.rel_to_abs]), after the background was already replaced. *)
Definition adjust_frame (c : fixed_camera) (channels : nat) (frame : image) (ct : option (coord_transformation QNum))
  : fixed_camera * result image :=
  match fc_start c channels frame with
  | Raise e => (c, Raise e)
  | Ret b =>
    let c1 := MkFC (fc_scale c) (fc_factor c) (Some b) in
    match ct with
    | None => (c1, Raise EAttributeError)
    | Some t =>
      let H := Z.of_nat (im_h frame) in let W := Z.of_nat (im_w frame) in
      let BH := Z.of_nat (im_h b) in let BW := Z.of_nat (im_w b) in
      match frame_corner b frame t with
      | Some (y0, x0) =>
        let x1 := (x0 + W)%Z in let y1 := (y0 + H)%Z in
        let out :=
          if leaves_canvas b frame y0 x0 then
            let fy0 := Z.max (- y0) 0 in let fx0 := Z.max (- x0) 0 in
            let fy1 := Z.max (Z.min (BH - y0) (y1 - y0)) 0 in
            let fx1 := Z.max (Z.min (BW - x0) (x1 - x0)) 0 in
            paste (Z.max y0 0) (Z.max y1 0) (Z.max x0 0) (Z.max x1 0) (crop fy0 fy1 fx0 fx1 frame) b
          else paste y0 y1 x0 x1 (crop 0 H 0 W frame) b in
        match out with
        | Some b' => (MkFC (fc_scale c) (fc_factor c) (Some b'), Ret b')
        | None => (c1, Raise EValueError)
        end
      | None => (c1, Raise EIndexError)
      end
    end
  end.

(* ------------------------------------------------------------------------------------------ *)
(** ** get_cutout *)

(** Python's [max]/[min] of a non-empty sequence. *)
Definition qmaximum (l : list Q) : option Q :=
  match l with [] => None | x :: l' => Some (fold_left (fun m v => if Qlt_le_dec m v then v else m) l' x) end.
Definition qminimum (l : list Q) : option Q :=
  match l with [] => None | x :: l' => Some (fold_left (fun m v => if Qlt_le_dec v m then v else m) l' x) end.

(** utils.py:61-67 [get_cutout]; [points] are the rows (x, y).  [max] of no points raises ValueError. *)
Definition get_cutout (points : list (Q * Q)) (im : image) : result (list (list pixel)) :=
  match qmaximum (map fst points), qminimum (map fst points), qmaximum (map snd points), qminimum (map snd points) with
  | Some max_x, Some min_x, Some max_y, Some min_y => Ret (crop (trunc min_y) (trunc max_y) (trunc min_x) (trunc max_x) im)
  | _, _, _, _ => Raise EValueError
  end.

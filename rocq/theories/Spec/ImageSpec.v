(** Vocabulary for images: pixels by position, and what the stabilized frame shows. *)
From Coq Require Import ZArith QArith Bool List.
From Verif Require Import Model.Num Model.Base Model.CameraMotion Model.Images.
Import ListNotations.
Local Open Scope Z_scope.

Definition valid_image (im : image) : Prop :=
  length (im_rows im) = im_h im /\ Forall (fun row => length row = im_w im) (im_rows im).

(** The pixel in row [y] and column [x], if there is one. *)
Definition px_rows (rows : list (list pixel)) (y x : Z) : option pixel :=
  if (0 <=? y) && (0 <=? x) then
    match nth_error rows (Z.to_nat y) with Some row => nth_error row (Z.to_nat x) | None => None end
  else None.
Definition px (im : image) (y x : Z) : option pixel := px_rows (im_rows im) y x.

(** [y], [x] is a position of the image. *)
Definition inside (im : image) (y x : Z) : Prop := 0 <= y < Z.of_nat (im_h im) /\ 0 <= x < Z.of_nat (im_w im).

(** Size of the stabilized frames of a camera whose first frame is [f]. *)
Definition canvas_h (scale : Q) (f : image) : Z := round_half_even (inject_Z (Z.of_nat (im_h f)) * scale).
Definition canvas_w (scale : Q) (f : image) : Z := round_half_even (inject_Z (Z.of_nat (im_w f)) * scale).

(** Where the camera motion [mx, my] puts the top left corner of frame [f] on a canvas of size bh x bw: the
    frame is centered, then moved by minus the camera motion. *)
Definition corner_y (bh : Z) (f : image) (my : Q) : Z := round_half_even (inject_Z (bh / 2 - Z.of_nat (im_h f) / 2) - my).
Definition corner_x (bw : Z) (f : image) (mx : Q) : Z := round_half_even (inject_Z (bw / 2 - Z.of_nat (im_w f) / 2) - mx).

(** One call of adjust_frame: the frame and the movement vector of the transformation. *)
Definition shot := (image * (Q * Q))%type.

(** The frame of the shot covers position (y, x) of a canvas of size bh x bw. *)
Definition covers (bh bw : Z) (s : shot) (y x : Z) : Prop :=
  inside (fst s) (y - corner_y bh (fst s) (snd (snd s))) (x - corner_x bw (fst s) (fst (snd s))).
(** ... and this is the pixel it shows there. *)
Definition shows (bh bw : Z) (s : shot) (y x : Z) : option pixel :=
  px (fst s) (y - corner_y bh (fst s) (snd (snd s))) (x - corner_x bw (fst s) (fst (snd s))).

(** A new camera after the calls [shots]: the last result, or the first exception. *)
Fixpoint film (c : fixed_camera) (channels : nat) (shots : list shot) : result (list image) :=
  match shots with
  | [] => Ret []
  | (f, (mx, my)) :: shots' =>
    match adjust_frame c channels f (Some (translation [mx : QNum; my : QNum])) with
    | (c', Ret b) => match film c' channels shots' with Ret bs => Ret (b :: bs) | Raise e => Raise e end
    | (_, Raise e) => Raise e
    end
  end.

(** A pixel after [k] further calls that did not cover it. *)
Definition faded (factor : Q) (k : nat) (p : pixel) : pixel := map (fun v => Nat.iter k (fade factor) v) p.

(** Which of these calls ask for the warning that the frame is cropped. *)
Fixpoint film_warns (c : fixed_camera) (channels : nat) (shots : list shot) : list bool :=
  match shots with
  | [] => []
  | (f, (mx, my)) :: shots' =>
    let t := Some (translation [mx : QNum; my : QNum]) in
    adjust_warns c channels f t :: film_warns (fst (adjust_frame c channels f t)) channels shots'
  end.
(** Some position of the frame comes to lie outside of a canvas of size bh x bw. *)
Definition cropped (bh bw : Z) (s : shot) : Prop :=
  exists y x, inside (fst s) y x /\
    ~ (0 <= y + corner_y bh (fst s) (snd (snd s)) < bh /\ 0 <= x + corner_x bw (fst s) (fst (snd s)) < bw).

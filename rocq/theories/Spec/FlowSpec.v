(** What drawing the optical flow does to a frame. *)
From Coq Require Import ZArith QArith Bool List.
From Verif Require Import Model.Num Model.Base Model.Images Model.Tracker Model.CameraMotion Model.FlowDrawing Spec.CameraSpec.
Import ListNotations.

(** Carrying out calls one after the other on a frame, up to the first one that raises. *)
Inductive painted {frame} (paint : frame -> stroke -> frame * result unit) : frame -> list stroke -> frame -> Prop :=
| painted_all f : painted paint f [] f
| painted_next f s f1 l f' : paint f s = (f1, Ret tt) -> painted paint f1 l f' -> painted paint f (s :: l) f'
| painted_stop f s f' e l : paint f s = (f', Raise e) -> painted paint f (s :: l) f'.

(** The flow of one point: a line of thickness 2 to where it was in the reference image, and a disc of radius 3 where it is now. *)
Definition arrow {N : Num} (to_int : N -> Z) (color : list Z) (now before : list N) : list stroke :=
  [Line (map to_int now) (map to_int before) color 2%Z; Disc (map to_int now) 3%Z color].
Definition arrows {N : Num} (to_int : N -> Z) (color : list Z) (now before : points N) : list stroke :=
  flat_map (fun q => arrow to_int color (fst q) (snd q)) (combine now before).

(** Colours in OpenCV's order. *)
Definition dark_red : list Z := [0; 0; 100]%Z.
Definition is_blue (c : list Z) : Prop := match c with [b; g; r] => (0 < b)%Z /\ g = 0%Z /\ r = 0%Z | _ => False end.

(** A camera whose images are a number with the strokes painted on it; a stroke makes the image look as displaced by one more pixel. *)
Definition fl_frame : Type := Z * list stroke.
Definition fl_vision : vision QNum :=
  MkVision fl_frame Z unit (fun f => Ret (fst f + Z.of_nat (length (snd f)))%Z) (fun _ _ => Ret (Some [[3 # 2; 0]]%Q : option (points QNum)))
    (fun g g' prev => Ret (map (@shifted_by QNum [inject_Z (g' - g); 0%Q]) prev, map (fun _ => true) prev)).
Definition fl_around (x : Q) : Q := inject_Z (Qround.Qfloor (x + (1 # 2))).
Definition fl_paint (f : fl_frame) (s : stroke) : fl_frame * result unit := ((fst f, snd f ++ [s]), Ret tt).
(** The same on arrays on which discs cannot be painted. *)
Definition fl_broken (f : fl_frame) (s : stroke) : fl_frame * result unit :=
  match s with Line _ _ _ _ => fl_paint f s | Disc _ _ _ => (f, Raise ERuntimeError) end.
Definition fl_start : estimator fl_vision (tgetter QNum) := estimator_new fl_vision (@tg_new QNum 1%Q (1 # 2)%Q).
Definition fl_run draw paint frames := draw_video (T := list Q) fl_vision trunc paint draw None (tg_call (N := QNum) fl_around) fl_start (0%Z, []) frames.

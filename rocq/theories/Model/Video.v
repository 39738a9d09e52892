(** norfair/video.py and the terminal helpers of norfair/utils.py.  OpenCV is not modelled: the calls made are recorded
    in order.  The progress bar is not modelled. *)
From Coq Require Import ZArith QArith Qround Bool Arith Ascii String List.
From Verif Require Import Model.Num Model.Base Model.Images Model.Strings Model.Metrics.
Import ListNotations.
Local Open Scope nat_scope.

(* ------------------------------------------------------------------------------------------ *)
(** ** Paths (POSIX) *)

Definition str_last (s : string) : option ascii := last (map Some (chars s)) None.
(** [os.path.join(a, b)] *)
Definition join (a b : string) : string :=
  match b with
  | String "/" _ => b
  | _ => match str_last a with
         | None => b
         | Some c => if Ascii.eqb c "/" then (a ++ b)%string else (a ++ "/" ++ b)%string
         end
  end.

(* ------------------------------------------------------------------------------------------ *)
(** ** Calls of OpenCV *)

Inductive source := FromFile (path : string) | FromCamera (device : Z).
(** A number handed to OpenCV: a Python int or float. *)
Inductive pynum := PyInt (z : Z) | PyFloat (q : Q).
Inductive vcall (Frame : Type) :=
| OpenCapture (s : source)
| OpenWriter (path fourcc : string) (fps : Q) (size : Z * Z)
| WriteFrame (f : Frame)
| ReleaseWriter
| ReleaseCapture
| CloseWindows
| Resize (f : Frame) (w h : pynum)
| Show (f : Frame).
Arguments OpenCapture {Frame} s.
Arguments OpenWriter {Frame} path fourcc fps size.
Arguments WriteFrame {Frame} f.
Arguments ReleaseWriter {Frame}.
Arguments ReleaseCapture {Frame}.
Arguments CloseWindows {Frame}.
Arguments Resize {Frame} f w h.
Arguments Show {Frame} f.

(* ------------------------------------------------------------------------------------------ *)
(** ** utils.py *)

(** utils.py:50-58 [get_terminal_size]: [tty fd] is [os.get_terminal_size(fd)], [None] when it raises OSError. *)
Fixpoint first_size (tty : Z -> option (Z * Z)) (fds : list Z) (default : Z * Z) : Z * Z :=
  match fds with
  | [] => default
  | fd :: fds' => match tty fd with Some s => s | None => first_size tty fds' default end
  end.
Definition get_terminal_size (tty : Z -> option (Z * Z)) (default : Z * Z) : Z * Z := first_size tty [0; 1; 2]%Z default.

(** utils.py:90-96 [warn_once] with its cache: the messages seen and the warnings written, oldest first. *)
Record warnings := MkWarn { wn_cache : list string; wn_log : list string }.
Definition warn_once (message : string) (w : warnings) : warnings :=
  if existsb (String.eqb message) (wn_cache w) then w
  else MkWarn (message :: wn_cache w) (wn_log w ++ [message]).

(** utils.py:29-47 [print_objects_as_table]: the rows of the table.  An object is (id, age, hit_counter, last_distance,
    initializing_id); [fmt4] is the format ":.4f", which raises TypeError on None. *)
Record table_object (D : Type) := MkTO {
  to_id : option nat; to_age : Z; to_hit : Z; to_distance : option D; to_init : nat }.
Arguments MkTO {D}. Arguments to_id {D}. Arguments to_age {D}. Arguments to_hit {D}. Arguments to_distance {D}. Arguments to_init {D}.
Definition str_id (i : option nat) : string := match i with Some n => str_of_Z (Z.of_nat n) | None => "None" end.
Fixpoint table_rows {D} (fmt4 : D -> string) (objs : list (table_object D)) : result (list (list string)) :=
  match objs with
  | [] => Ret []
  | o :: objs' =>
    match to_distance o with
    | None => Raise ETypeError
    | Some d =>
      match table_rows fmt4 objs' with
      | Ret rows => Ret ([str_id (to_id o); str_of_Z (to_age o); str_of_Z (to_hit o); fmt4 d; str_of_Z (Z.of_nat (to_init o))] :: rows)
      | Raise e => Raise e
      end
    end
  end.

(* ------------------------------------------------------------------------------------------ *)
(** ** Video *)

Section Video.
Context {Frame : Type}.
(** The file system, the source ([reads k]: the k-th read, [None] when it fails; frame count and frame rate), the time
    elapsed at the k-th read since the iteration began, and the (height, width) of a frame. *)
Record world := MkWorld {
  w_isfile : string -> bool; w_isdir : string -> bool; w_expanduser : string -> string;
  w_count : string -> Z; w_fps : source -> Q; w_reads : source -> nat -> option Frame;
  w_elapsed : nat -> Q; w_shape : Frame -> Z * Z }.
Context (W : world).

(** The argument [camera]: an int or anything else (a bool is not an int here: [type(camera) is not int]). *)
Inductive camera_arg := CamInt (z : Z) | CamOther.
Record vargs := MkVArgs {
  va_camera : option camera_arg; va_input : option string; va_output : string; va_fps : option Q;
  va_label : string; va_fourcc : option string; va_ext : string }.

Record video := MkVideo {
  v_source : source; v_output : string; v_fourcc : option string; v_ext : string; v_fps : Q; v_description : string;
  v_total : Z; v_counter : nat; v_reads : nat; v_open : bool; v_writer : bool; v_calls : list (vcall Frame) }.
Definition v_call (c : vcall Frame) (v : video) : video :=
  MkVideo (v_source v) (v_output v) (v_fourcc v) (v_ext v) (v_fps v) (v_description v) (v_total v) (v_counter v) (v_reads v)
    (v_open v) (v_writer v) (v_calls v ++ [c]).
Definition v_set_writer (v : video) : video :=
  MkVideo (v_source v) (v_output v) (v_fourcc v) (v_ext v) (v_fps v) (v_description v) (v_total v) (v_counter v) (v_reads v)
    (v_open v) true (v_calls v).
Definition v_close_capture (v : video) : video :=
  MkVideo (v_source v) (v_output v) (v_fourcc v) (v_ext v) (v_fps v) (v_description v) (v_total v) (v_counter v) (v_reads v)
    false (v_writer v) (v_calls v).
Definition v_tick (v : video) : video :=
  MkVideo (v_source v) (v_output v) (v_fourcc v) (v_ext v) (v_fps v) (v_description v) (v_total v) (S (v_counter v)) (S (v_reads v))
    (v_open v) (v_writer v) (v_calls v).

(** video.py:286-298 [abbreviate_description]; the argument [columns] is the width of the terminal. *)
Definition abbreviate (columns : Z) (description : string) : string :=
  let space := (columns - 25)%Z in
  if (Z.of_nat (slen description) <? space)%Z then description
  else (str_to (space / 2 - 3) description ++ " ... " ++ str_from ((- space) / 2 + 3) description)%string.

(** video.py:65-150 [Video.__init__] *)
Definition video_new (a : vargs) (columns : Z) : result video :=
  let make s total description :=
    let description := if String.eqb (va_label a) EmptyString then description else (description ++ " | " ++ va_label a)%string in
    MkVideo s (va_output a) (va_fourcc a) (va_ext a) (match va_fps a with Some f => f | None => w_fps W s end)
      (abbreviate columns description) total 0 0 true false [OpenCapture s] in
  match va_input a, va_camera a with
  | None, None | Some _, Some _ => Raise EValueError
  | None, Some CamOther => Raise EValueError
  | None, Some (CamInt z) => Ret (make (FromCamera z) 0%Z ("Camera(" ++ str_of_Z z ++ ")")%string)
  | Some p, None =>
    let p := if str_mem "~" p then w_expanduser W p else p in
    if w_isfile W p then
      if (w_count W p =? 0)%Z then Raise ERuntimeError else Ret (make (FromFile p) (w_count W p) (basename p))
    else Raise ERuntimeError
  end.

(** video.py:244-264 [get_output_file_path].  The name for cameras is a plain string in the code, not an f-string. *)
Definition output_path (v : video) : string :=
  if w_isdir W (v_output v) then
    let name := match v_source v with
                | FromFile p => hd EmptyString (split_on "." (last (split_on "/" p) EmptyString))
                | FromCamera _ => "camera_{self.camera}"%string
                end in
    join (v_output v) (name ++ "_out." ++ v_ext v)%string
  else v_output v.

(** video.py:266-284 [get_codec_fourcc] *)
Definition codec_fourcc (v : video) (filename : string) : result string :=
  match v_fourcc v with
  | Some c => Ret c
  | None =>
    let extension := str_lower (str_from (-3) filename) in
    if String.eqb "avi" extension then Ret "XVID"%string
    else if String.eqb "mp4" extension then Ret "mp4v"%string
    else Raise ERuntimeError
  end.

(** video.py:181-212 [write].  [cv2.VideoWriter_fourcc] takes exactly four characters (TypeError otherwise). *)
Definition write (f : Frame) (v : video) : video * result unit :=
  if v_writer v then (v_call (WriteFrame f) v, Ret tt)
  else
    match codec_fourcc v (output_path v) with
    | Raise e => (v, Raise e)
    | Ret cc =>
      if Nat.eqb (slen cc) 4 then
        let v1 := v_call (OpenWriter (output_path v) cc (v_fps v) (snd (w_shape W f), fst (w_shape W f))) v in
        (v_call (WriteFrame f) (v_set_writer v1), Ret tt)
      else (v, Raise ETypeError)
    end.

(** The generator made by [__iter__]: running (also before its first step) or finished. *)
Inductive gen := GRunning | GDone.
(** video.py:153-176: one [next].  A released capture fails to read; [Ret None] is StopIteration.  When no time has
    passed since the start the division raises ZeroDivisionError. *)
Definition gen_next (g : gen) (v : video) : video * gen * result (option Frame) :=
  match g with
  | GDone => (v, GDone, Ret None)
  | GRunning =>
    let k := v_reads v in
    let v := v_tick v in
    match (if v_open v then w_reads W (v_source v) k else None) with
    | Some f =>
      if Qeq_bool (w_elapsed W k) 0 then (v, GDone, Raise EZeroDivisionError) else (v, GRunning, Ret (Some f))
    | None =>
      let v := if v_writer v then v_call ReleaseWriter v else v in
      (v_call CloseWindows (v_call ReleaseCapture (v_close_capture v)), GDone, Ret None)
    end
  end.

(** video.py:214-242 [show].  [n // ratio] is an int when the ratio is an int and a float otherwise. *)
Definition floor_div (n : Z) (r : pynum) : result pynum :=
  match r with
  | PyInt z => if (z =? 0)%Z then Raise EZeroDivisionError else Ret (PyInt (n / z))
  | PyFloat q => if Qeq_bool q 0 then Raise EZeroDivisionError else Ret (PyFloat (inject_Z (Qfloor (inject_Z n / q))))
  end.
Definition is_one (r : pynum) : bool := match r with PyInt z => (z =? 1)%Z | PyFloat q => Qeq_bool q 1 end.
(** [cv2.resize] takes only ints for the size: TypeError otherwise.  [resized] is its result. *)
Definition show (resized : Frame -> Z -> Z -> Frame) (f : Frame) (ratio : pynum) (v : video) : video * result unit :=
  if is_one ratio then (v_call (Show f) v, Ret tt)
  else
    match floor_div (snd (w_shape W f)) ratio, floor_div (fst (w_shape W f)) ratio with
    | Ret w, Ret h =>
      let v := v_call (Resize f w h) v in
      match w, h with
      | PyInt w, PyInt h => (v_call (Show (resized f w h)) v, Ret tt)
      | _, _ => (v, Raise ETypeError)
      end
    | Raise e, _ => (v, Raise e)
    | _, Raise e => (v, Raise e)
    end.

(* ------------------------------------------------------------------------------------------ *)
(** ** VideoFromFrames *)

Record fvideo := MkFVideo {
  fv_input : string; fv_length : info; fv_frame : Z; fv_ext : info; fv_dir : info; fv_video : bool; fv_calls : list (vcall Frame) }.

(** video.py:301-336 [VideoFromFrames.__init__]; [lines] are the lines of seqinfo.ini.  cv2.VideoWriter rejects a frame
    rate or size that is a string (TypeError). *)
Definition fvideo_new (input save : string) (lines : list string) (make_video : bool) : result fvideo :=
  let opened :=
    if make_video then
      match search lines "frameRate", search lines "imWidth", search lines "imHeight" with
      | Ret (InfoInt fps), Ret (InfoInt w), Ret (InfoInt h) =>
        Ret [OpenWriter (join (join save "videos") (basename input ++ ".mp4")) "mp4v" (inject_Z fps) (w, h)]
      | Raise e, _, _ => Raise e
      | Ret _, Raise e, _ => Raise e
      | Ret _, Ret _, Raise e => Raise e
      | _, _, _ => Raise ETypeError
      end
    else Ret [] in
  match opened with
  | Raise e => Raise e
  | Ret calls =>
    match search lines "seqLength", search lines "imExt", search lines "imDir" with
    | Ret n, Ret ext, Ret dir => Ret (MkFVideo input n 1 ext dir make_video calls)
    | Raise e, _, _ => Raise e
    | Ret _, Raise e, _ => Raise e
    | Ret _, Ret _, Raise e => Raise e
    end
  end.

(** video.py:338-340 [__iter__] *)
Definition fv_iter (s : fvideo) : fvideo :=
  MkFVideo (fv_input s) (fv_length s) 1 (fv_ext s) (fv_dir s) (fv_video s) (fv_calls s).

(** video.py:342-352 [__next__]: the path handed to cv2.imread; [Ret None] is StopIteration. *)
Definition fv_next (s : fvideo) : fvideo * result (option string) :=
  match fv_length s with
  | InfoStr _ => (s, Raise ETypeError)
  | InfoInt n =>
    if (fv_frame s <=? n)%Z then
      match fv_ext s, fv_dir s with
      | InfoStr ext, InfoStr dir =>
        (MkFVideo (fv_input s) (fv_length s) (fv_frame s + 1) (fv_ext s) (fv_dir s) (fv_video s) (fv_calls s),
         Ret (Some (join (join (fv_input s) dir) (zfill 6 (str_of_Z (fv_frame s)) ++ ext)%string)))
      | _, _ => (s, Raise ETypeError)
      end
    else (s, Ret None)
  end.

(** video.py:354-360 [update]; without make_video there is no attribute [video]. *)
Definition fv_update (f : Frame) (s : fvideo) : fvideo * result unit :=
  if fv_video s then
    match fv_length s with
    | InfoStr _ => (MkFVideo (fv_input s) (fv_length s) (fv_frame s) (fv_ext s) (fv_dir s) (fv_video s) (fv_calls s ++ [WriteFrame f]),
                    Raise ETypeError)
    | InfoInt n =>
      (MkFVideo (fv_input s) (fv_length s) (fv_frame s) (fv_ext s) (fv_dir s) (fv_video s)
         (fv_calls s ++ WriteFrame f :: (if (n <? fv_frame s)%Z then [CloseWindows; ReleaseWriter] else [])), Ret tt)
    end
  else (s, Raise EAttributeError).
End Video.
Arguments world : clear implicits.
Arguments video : clear implicits.
Arguments fvideo : clear implicits.

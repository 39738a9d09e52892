(** C73-C80: videos, output files, the progress bar and warnings. *)
From Coq Require Import ZArith QArith Bool Arith Ascii String List Lia.
From Verif Require Import Model.Num Model.Base Model.Strings Model.Metrics Model.Video Spec.MetricsSpec Spec.VideoSpec
  Proofs.VideoProofs Proofs.VideoPaths Proofs.VideoFrames Proofs.VideoTheorems Proofs.VideoIter.
Import ListNotations.
Local Open Scope nat_scope.

(** C73: a Video is made exactly when the arguments name one usable source. *)
Theorem C73_constructor (Frame : Type) (W : world Frame) a c :
  (forall s, names_source W a s -> exists v, video_new W a c = Ret v /\ v_source v = s /\ v_calls v = [OpenCapture s] /\
     v_fps v = match va_fps a with Some f => f | None => w_fps W s end) /\
  (bad_arguments a -> video_new W a c = Raise EValueError) /\
  (forall p, va_camera a = None -> va_input a = Some p -> (w_isfile W (full_path W p) = false \/ w_count W (full_path W p) = 0%Z) ->
     video_new W a c = Raise ERuntimeError) /\
  (forall v, video_new W a c = Ret v -> names_source W a (v_source v)).
Proof. exact (constructor W a c). Qed.
Print Assumptions C73_constructor.
Example ex73 : names_source w0 (a0 "in/video.mp4" ".") (FromFile "in/video.mp4") /\ bad_arguments (MkVArgs (Some (CamInt 0)) (Some "x"%string) "." None "" None "mp4") /\
  video_new w0 (a0 "missing.mp4" ".") 80 = Raise ERuntimeError.
Proof.
  split; [apply (names_file w0 (a0 "in/video.mp4" ".") "in/video.mp4"); [reflexivity|reflexivity|reflexivity|cbn; lia]|].
  split; [right; left; split; discriminate|reflexivity].
Qed.

(** C74: whatever iterators are made and however reading is interleaved with writing, each frame of the source is
    yielded once, in order. *)
Theorem C74_frames (Frame : Type) (W : world Frame) a c v acts : video_new W a c = Ret v -> (forall k, ~ (w_elapsed W k == 0)%Q) ->
  (forall fs, has_frames (w_reads W (v_source v)) fs -> snd (use W acts fresh_gens v) = firstn (nexts_in acts) fs) /\
  (forall f, (forall i, w_reads W (v_source v) i = Some (f i)) -> snd (use W acts fresh_gens v) = map f (seq 0 (nexts_in acts))).
Proof. exact (frames_yielded W a c v acts). Qed.
Print Assumptions C74_frames.
Example ex74 : video_new w0 (a0 "in/video.mp4" ".") 80 = Ret (v0 "in/video.mp4" ".") /\ (forall k, ~ (w_elapsed w0 k == 0)%Q) /\
  has_frames (w_reads w0 (v_source (v0 "in/video.mp4" "."))) [10; 11; 12] /\
  snd (use w0 [Next 0; Write 7; Next 1; Next 0; Next 1; Next 2] fresh_gens (v0 "in/video.mp4" ".")) = [10; 11; 12].
Proof. split; [apply v0_new; reflexivity|]. split; [exact w0_time|]. split; [apply w0_frames|vm_compute; reflexivity]. Qed.

(** One iterator: the frame counter counts the reads, including the one that fails; the source is closed when that one is
    made, once.  If the clock has not moved when a frame is read, that frame is lost, the iteration is over
    (ZeroDivisionError) and the source is left open. *)
Theorem C74_iterator (Frame : Type) (W : world Frame) a c v acts fs : video_new W a c = Ret v -> (forall i, In (Next i) acts -> i = 0) ->
  has_frames (w_reads W (v_source v)) fs ->
  let closed u := List.length (filter (fun x : vcall Frame => match x with ReleaseCapture => true | _ => false end) (v_calls u)) in
  ((forall k, ~ (w_elapsed W k == 0)%Q) ->
     v_counter (fst (use W acts fresh_gens v)) = Nat.min (nexts_in acts) (S (length fs)) /\
     closed (fst (use W acts fresh_gens v)) = if nexts_in acts <=? length fs then 0 else 1) /\
  (forall k, k < length fs -> (w_elapsed W k == 0)%Q -> (forall i, i < k -> ~ (w_elapsed W i == 0)%Q) ->
     snd (use W acts fresh_gens v) = firstn (Nat.min (nexts_in acts) k) fs /\
     v_counter (fst (use W acts fresh_gens v)) = Nat.min (nexts_in acts) (S k) /\
     closed (fst (use W acts fresh_gens v)) = 0).
Proof. exact (one_iterator W a c v acts fs). Qed.
Print Assumptions C74_iterator.
Theorem C74_still_clock (Frame : Type) (W : world Frame) v f : v_open v = true -> w_reads W (v_source v) (v_reads v) = Some f -> (w_elapsed W (v_reads v) == 0)%Q ->
  exists v', gen_next W GRunning v = (v', GDone, Raise EZeroDivisionError).
Proof. exact (still_clock W v f). Qed.
Print Assumptions C74_still_clock.
(** The same video with a clock that has not moved at the second read. *)
Definition w0_still : world nat := MkWorld (w_isfile w0) (w_isdir w0) (w_expanduser w0) (w_count w0) (w_fps w0) (w_reads w0)
  (fun k => if Nat.eqb k 1 then 0%Q else 1%Q) (w_shape w0).
Example ex74_iterator : (snd (use w0_still [Next 0; Next 0; Next 0; Next 0] fresh_gens (v0 "in/video.mp4" ".")),
   v_counter (fst (use w0_still [Next 0; Next 0; Next 0; Next 0] fresh_gens (v0 "in/video.mp4" "."))),
   v_counter (fst (use w0 [Next 0; Next 0; Next 0; Next 0; Next 0; Next 0] fresh_gens (v0 "in/video.mp4" ".")))) = ([10], 2, 4).
Proof. vm_compute. reflexivity. Qed.

(** C75: what reaches the output file. *)
Theorem C75_written (Frame : Type) (W : world Frame) a c v cc acts : video_new W a c = Ret v -> codec_for v (output_path W v) cc -> slen cc = 4 ->
  filter to_file (v_calls (fst (use W acts fresh_gens v))) = opens_with W v cc (written acts).
Proof. exact (output_calls W a c v cc acts). Qed.
Print Assumptions C75_written.
(** A whole for loop: the file is opened at the first write with the size of that frame, gets the frames, and is closed,
    and so is the source. *)
Theorem C75_loop (Frame : Type) (W : world Frame) a c v cc body fs : video_new W a c = Ret v -> (forall k, ~ (w_elapsed W k == 0)%Q) ->
  codec_for v (output_path W v) cc -> slen cc = 4 -> has_frames (w_reads W (v_source v)) fs ->
  v_calls (fst (use W (for_loop body fs) fresh_gens v)) =
    [OpenCapture (v_source v)] ++ opens_with W v cc (flat_map body fs) ++
    (match flat_map body fs with [] => [] | _ => [ReleaseWriter] end) ++ [ReleaseCapture; CloseWindows].
Proof. exact (loop_calls W a c v cc body fs). Qed.
Print Assumptions C75_loop.
(** Everything written in the loop is saved. *)
Theorem C75_saved (Frame : Type) (W : world Frame) a c v cc body fs : video_new W a c = Ret v -> (forall k, ~ (w_elapsed W k == 0)%Q) ->
  codec_for v (output_path W v) cc -> slen cc = 4 -> has_frames (w_reads W (v_source v)) fs ->
  saved (v_calls (fst (use W (for_loop body fs) fresh_gens v))) = flat_map body fs.
Proof. exact (loop_saved W a c v cc body fs). Qed.
Print Assumptions C75_saved.
(** Leaving the loop early never closes the output file nor the source. *)
Theorem C75_left_open (Frame : Type) (W : world Frame) a c v acts fs : video_new W a c = Ret v -> (forall k, ~ (w_elapsed W k == 0)%Q) ->
  has_frames (w_reads W (v_source v)) fs -> nexts_in acts <= length fs -> existsb is_release (v_calls (fst (use W acts fresh_gens v))) = false.
Proof. exact (not_exhausted W a c v acts fs). Qed.
Print Assumptions C75_left_open.
(** What is written after the loop is lost. *)
Theorem C75_refuted_late : exists (W : world nat) a c v cc fs extra, video_new W a c = Ret v /\ (forall k, ~ (w_elapsed W k == 0)%Q) /\
  codec_for v (output_path W v) cc /\ slen cc = 4 /\ has_frames (w_reads W (v_source v)) fs /\
  let acts := for_loop (fun f => [f]) fs ++ [Write extra] in
  written acts = fs ++ [extra] /\ saved (v_calls (fst (use W acts fresh_gens v))) = fs.
Proof. exact late_writes_lost. Qed.
Print Assumptions C75_refuted_late.
Example ex75 : codec_for (v0 "in/video.mp4" ".") (output_path w0 (v0 "in/video.mp4" ".")) "mp4v" /\
  v_calls (fst (use w0 (for_loop (fun f => [f + 100]) [10; 11; 12]) fresh_gens (v0 "in/video.mp4" "."))) =
  [OpenCapture (FromFile "in/video.mp4"); OpenWriter "./video_out.mp4" "mp4v" 25 (640, 480)%Z; WriteFrame 110; WriteFrame 111; WriteFrame 112;
   ReleaseWriter; ReleaseCapture; CloseWindows].
Proof. split; [apply codec_iff; vm_compute; reflexivity|vm_compute; reflexivity]. Qed.

(** C76: the output file. *)
Theorem C76_given (Frame : Type) (W : world Frame) v : w_isdir W (v_output v) = false -> output_path W v = v_output v.
Proof. exact (output_given W v). Qed.
Print Assumptions C76_given.
Theorem C76_in_folder (Frame : Type) (W : world Frame) v p dir stem rest : w_isdir W (v_output v) = true -> v_source v = FromFile p -> splits_as p dir stem rest ->
  exists s, folder (v_output v) s /\ output_path W v = (s ++ stem ++ "_out." ++ v_ext v)%string.
Proof. exact (output_file W v p dir stem rest). Qed.
Print Assumptions C76_in_folder.
(** Every path splits that way. *)
Theorem C76_splits p : exists dir stem rest, splits_as p dir stem rest.
Proof. exact (splits_exist p). Qed.
Print Assumptions C76_splits.
(** The output is never the input, when it goes to a folder. *)
Theorem C76_never_input (Frame : Type) (W : world Frame) v p : w_isdir W (v_output v) = true -> v_source v = FromFile p -> str_mem "/" (v_ext v) = false ->
  output_path W v <> p.
Proof. exact (output_not_input W v p). Qed.
Print Assumptions C76_never_input.
(** Two inputs have the same output exactly when their names agree up to the first dot. *)
Theorem C76_same_output (Frame : Type) (W : world Frame) v v' p p' dir dir' stem stem' rest rest' :
  w_isdir W (v_output v) = true -> v_output v' = v_output v -> v_ext v' = v_ext v ->
  v_source v = FromFile p -> v_source v' = FromFile p' -> splits_as p dir stem rest -> splits_as p' dir' stem' rest' ->
  (output_path W v = output_path W v' <-> stem = stem').
Proof. exact (output_same W v v' p p' dir dir' stem stem' rest rest'). Qed.
Print Assumptions C76_same_output.
Theorem C76_refuted_files : exists (W : world nat) a a' c v v' p p', video_new W a c = Ret v /\ video_new W a' c = Ret v' /\
  v_source v = FromFile p /\ v_source v' = FromFile p' /\ p <> p' /\ w_isdir W (v_output v) = true /\ output_path W v = output_path W v'.
Proof. exact outputs_collide. Qed.
Print Assumptions C76_refuted_files.
(** All cameras have the same output. *)
Theorem C76_refuted_cameras (Frame : Type) (W : world Frame) v v' z z' : v_source v = FromCamera z -> v_source v' = FromCamera z' ->
  v_output v = v_output v' -> v_ext v = v_ext v' -> output_path W v = output_path W v'.
Proof. exact (cameras_collide W v v' z z'). Qed.
Print Assumptions C76_refuted_cameras.
Theorem C76_refuted_overwrite : exists (W : world nat) a c v p, video_new W a c = Ret v /\ v_source v = FromFile p /\ output_path W v = p.
Proof. exact output_overwrites. Qed.
Print Assumptions C76_refuted_overwrite.
Example ex76 : splits_as "in/a.1.mp4" "in/" "a" ".1.mp4" /\ folder "out" "out/" /\ output_path w0 (v0 "in/a.1.mp4" "out") = "out/a_out.mp4"%string /\
  w_isdir w0 (v_output (v0 "in/a.1.mp4" "out")) = true /\ v_source (v0 "in/a.1.mp4" "out") = FromFile "in/a.1.mp4".
Proof.
  split.
  - repeat (split; [first [reflexivity|right; exists "in"%string; reflexivity]|]). right. exists "1.mp4"%string. reflexivity.
  - split; [|vm_compute; auto]. right; right. split; [discriminate|]. split; [|reflexivity]. change "out"%string with ("ou" ++ String "t" "")%string. rewrite ends_slash. discriminate.
Qed.

(** C77: codecs. *)
Theorem C77_codec (Frame : Type) (v : video Frame) name :
  (forall cc, codec_fourcc v name = Ret cc <-> codec_for v name cc) /\ ((forall cc, ~ codec_for v name cc) -> codec_fourcc v name = Raise ERuntimeError).
Proof. exact (conj (codec_iff v name) (codec_none v name)). Qed.
Print Assumptions C77_codec.
(** Without a usable codec a write fails and leaves nothing behind. *)
Theorem C77_write_fails (Frame : Type) (W : world Frame) v f : v_writer v = false -> (forall cc, ~ codec_for v (output_path W v) cc) -> write W f v = (v, Raise ERuntimeError).
Proof. exact (write_without_codec W v f). Qed.
Print Assumptions C77_write_fails.
Example ex77 : codec_for (v0 "in/video.mp4" "x.AVI") "x.AVI" "XVID" /\ codec_fourcc (v0 "in/video.mp4" "x.mkv") "x.mkv" = Raise ERuntimeError /\
  forall cc, ~ codec_for (v0 "in/video.mp4" "x.mkv") "x.mkv" cc.
Proof.
  split; [apply codec_iff; vm_compute; reflexivity|]. split; [vm_compute; reflexivity|]. intros cc H. apply codec_iff in H. vm_compute in H. discriminate.
Qed.

(** C78: the text of the progress bar fits in the terminal when there are 32 columns or more. *)
Theorem C78_fits columns s : (32 <= columns)%Z ->
  (Z.of_nat (slen (abbreviate columns s)) < columns - 25)%Z /\
  ((Z.of_nat (slen s) < columns - 25)%Z -> abbreviate columns s = s) /\
  ((columns - 25 <= Z.of_nat (slen s))%Z ->
   exists n m, shortened s n m (abbreviate columns s) /\ (Z.of_nat (n + 5 + m) = columns - 26)%Z /\ n <= m <= n + 1).
Proof. exact (fun H => conj (abbreviate_fits columns s H) (conj (abbreviate_short columns s) (abbreviate_long columns s H))). Qed.
Print Assumptions C78_fits.
(** The bar counts up to the number of frames of a file (to 0 for a camera), and its text names the source and the label. *)
Theorem C78_bar (Frame : Type) (W : world Frame) a columns v : video_new W a columns = Ret v ->
  v_total v = match v_source v with FromFile p => w_count W p | FromCamera _ => 0%Z end /\
  forall title, called (v_source v) title ->
    (va_label a = EmptyString -> v_description v = abbreviate columns title) /\
    (va_label a <> EmptyString -> v_description v = abbreviate columns (title ++ " | " ++ va_label a)).
Proof. exact (bar_of_video W a columns v). Qed.
Print Assumptions C78_bar.
Example ex78_bar : exists v, video_new w0 (MkVArgs None (Some "in/video.mp4"%string) "." None "test" None "mp4") 80 = Ret v /\
  called (v_source v) "video.mp4" /\ v_total v = w_count w0 "in/video.mp4" /\ v_description v = "video.mp4 | test"%string.
Proof.
  eexists. split; [reflexivity|]. split; [|split; vm_compute; reflexivity].
  apply (called_file "in/" "video.mp4"); [right; exists "in"%string; reflexivity|reflexivity].
Qed.
(** With 31 columns the abbreviation is longer than the text. *)
Theorem C78_refuted_narrow s : 6 <= slen s -> abbreviate 31 s = (" ... " ++ s)%string.
Proof. exact (abbreviate_31 s). Qed.
Print Assumptions C78_refuted_narrow.
(** The size of the terminal is that of the first standard stream that has one. *)
Theorem C78_terminal tty default :
  (forall fd sz, (0 <= fd <= 2)%Z -> tty fd = Some sz -> (forall k, (0 <= k < fd)%Z -> tty k = None) -> get_terminal_size tty default = sz) /\
  ((forall k, (0 <= k <= 2)%Z -> tty k = None) -> get_terminal_size tty default = default).
Proof. exact (conj (terminal_first tty default) (terminal_default tty default)). Qed.
Print Assumptions C78_terminal.
Example ex78 : abbreviate 40 "a_rather_long_description.mp4" = "a_ra ... n.mp4"%string /\
  get_terminal_size (fun fd => if (fd =? 1)%Z then Some (100, 30)%Z else None) (80, 24)%Z = (100, 30)%Z.
Proof. vm_compute. auto. Qed.

(** C79: frames in a folder: list(video) reads the files 000001, 000002, ..., each once, and can be repeated. *)
Theorem C79_frames (Frame : Type) input save lines n ext dir :
  declares lines "seqLength" (str_of_Z (Z.of_nat n)) -> declares lines "imExt" ext -> declares lines "imDir" dir -> isdigit ext = false -> isdigit dir = false ->
  exists (s s' : fvideo Frame) paths, fvideo_new input save lines false = Ret s /\ fv_list (S n) s = (s', paths) /\ fv_list (S n) (fv_iter s') = (s', paths) /\
    (exists s'', fv_next s' = (s'', Ret None)) /\
    NoDup paths /\ Forall2 (fun k p => exists d digits, folder (join input dir) d /\ frame_digits k digits /\ p = (d ++ digits ++ ext)%string) (numbers n) paths.
Proof. exact (folder_frames input save lines n ext dir). Qed.
Print Assumptions C79_frames.
(** Calling update for each frame writes them all and closes the file after the last one. *)
Theorem C79_video (Frame : Type) input save lines n ext dir fps w h (body : string -> Frame) :
  declares lines "seqLength" (str_of_Z (Z.of_nat n)) -> declares lines "imExt" ext -> declares lines "imDir" dir -> isdigit ext = false -> isdigit dir = false ->
  declares lines "frameRate" (str_of_Z fps) -> declares lines "imWidth" (str_of_Z w) -> declares lines "imHeight" (str_of_Z h) -> (0 <= fps)%Z -> (0 <= w)%Z -> (0 <= h)%Z ->
  1 <= n ->
  exists (s s' : fvideo Frame) paths, fvideo_new input save lines true = Ret s /\ fv_loop body (S n) s = (s', paths) /\ length paths = n /\
    fv_calls s' = OpenWriter (join (join save "videos") (basename input ++ ".mp4")) "mp4v" (inject_Z fps) (w, h) ::
                  map WriteFrame (map body paths) ++ [CloseWindows; ReleaseWriter].
Proof. exact (folder_video input save lines n ext dir fps w h body). Qed.
Print Assumptions C79_video.
(** A frame rate that is not a whole number is rejected. *)
Theorem C79_refuted_rate (Frame : Type) input save lines v : declares lines "frameRate" v -> isdigit v = false ->
  (exists i, search lines "imWidth" = Ret i) -> (exists i, search lines "imHeight" = Ret i) ->
  fvideo_new (Frame := Frame) input save lines true = Raise ETypeError.
Proof. exact (fvideo_rate input save lines v). Qed.
Print Assumptions C79_refuted_rate.
Definition ex79_before : list (string * string) := [("[Sequence]", ""); ("name", "MOT17-02"); ("imDir", "img1"); ("frameRate", "30")]%string.
Definition ex79_after : list (string * string) := [("imWidth", "1920"); ("imHeight", "1080"); ("imExt", ".jpg")]%string.
Example ex79 : declares (map assignment (ex79_before ++ ("seqLength", "2")%string :: ex79_after)) "seqLength" (str_of_Z (Z.of_nat 2)) /\
  match fvideo_new (Frame := nat) "data/MOT17-02" "." (map assignment (ex79_before ++ ("seqLength", "2")%string :: ex79_after)) true with
  | Ret s => (snd (fv_loop (fun _ => 5) 3 s), fv_calls (fst (fv_loop (fun _ => 5) 3 s))) =
     (["data/MOT17-02/img1/000001.jpg"; "data/MOT17-02/img1/000002.jpg"]%string,
      [OpenWriter "./videos/MOT17-02.mp4" "mp4v" 30 (1920, 1080)%Z; WriteFrame 5; WriteFrame 5; CloseWindows; ReleaseWriter])
  | Raise _ => False end.
Proof.
  split; [|vm_compute; reflexivity]. exists ex79_before, ex79_after. split; [reflexivity|].
  intros kv H. cbn in H. destruct H as [<-|[<-|[<-|[<-|[]]]]]; intros [r E]; discriminate E.
Qed.

(** C80: show.  An int ratio divides the size; a float ratio other than 1.0 is passed on as floats, which OpenCV rejects. *)
Theorem C80_show (Frame : Type) (W : world Frame) resized f r v :
  ((r = PyInt 1 \/ exists q, r = PyFloat q /\ (q == 1)%Q) -> show W resized f r v = (v_call (Show f) v, Ret tt)) /\
  ((r = PyInt 0 \/ exists q, r = PyFloat q /\ (q == 0)%Q) -> show W resized f r v = (v, Raise EZeroDivisionError)) /\
  (forall z, r = PyInt z -> z <> 0%Z -> z <> 1%Z ->
     let w := (snd (w_shape W f) / z)%Z in let h := (fst (w_shape W f) / z)%Z in
     show W resized f r v = (v_call (Show (resized f w h)) (v_call (Resize f (PyInt w) (PyInt h)) v), Ret tt)) /\
  (forall q, r = PyFloat q -> ~ (q == 0)%Q -> ~ (q == 1)%Q -> exists v', show W resized f r v = (v', Raise ETypeError)).
Proof. exact (show_frame W resized f r v). Qed.
Print Assumptions C80_show.
Example ex80 : v_calls (fst (show w0 (fun f _ _ => f) 10 (PyInt 2) (v0 "in/video.mp4" "."))) =
  [OpenCapture (FromFile "in/video.mp4"); Resize 10 (PyInt 320) (PyInt 240); Show 10].
Proof. vm_compute. reflexivity. Qed.

(** The theorems about videos, and the cases used as examples. *)
From Coq Require Import ZArith QArith Qround Bool Arith Ascii String List Lia.
From Verif Require Import Model.Num Model.Base Model.Images Model.Strings Model.Metrics Model.Video Spec.MetricsSpec Spec.VideoSpec.
From Verif Require Import Proofs.MetricsProofs Proofs.VideoProofs Proofs.VideoPaths Proofs.VideoFrames.
Import ListNotations.
Local Open Scope nat_scope.

Section T.
Context {Frame : Type} (W : world Frame).
Implicit Types v : video Frame.

Lemma constructor a c :
  (forall s, names_source W a s -> exists v, video_new W a c = Ret v /\ v_source v = s /\ v_calls v = [OpenCapture s] /\
     v_fps v = match va_fps a with Some f => f | None => w_fps W s end) /\
  (bad_arguments a -> video_new W a c = Raise EValueError) /\
  (forall p, va_camera a = None -> va_input a = Some p -> (w_isfile W (full_path W p) = false \/ w_count W (full_path W p) = 0%Z) ->
     video_new W a c = Raise ERuntimeError) /\
  (forall v, video_new W a c = Ret v -> names_source W a (v_source v)).
Proof.
  split; [|split; [|split]].
  - intros s H. destruct (proj2 (video_new_accepts W a c) (ex_intro _ s H)) as [v E]. exists v. split; [exact E|].
    assert (Q := video_new_names W a c v E). destruct Q as (Q1 & Q2 & Q3 & _).
    assert (v_source v = s) as <-.
    { clear - H Q1. destruct H as [z EI EC|p EC EI F NZ], Q1 as [z' EI' EC'|p' EC' EI' F' NZ']; congruence. }
    auto.
  - intros H. apply video_new_value_error. exact H.
  - intros p EC EI H. unfold video_new. rewrite EC, EI. fold (full_path W p). destruct H as [-> |H]; [reflexivity|].
    rewrite H. destruct (w_isfile W (full_path W p)); reflexivity.
  - intros v H. apply video_new_names in H. tauto.
Qed.

Lemma fuf_firstn fs : forall reads, has_frames reads fs -> forall k, frames_until_failure (Frame := Frame) reads k = firstn k fs.
Proof.
  induction fs as [|f fs IH]; intros reads [H N] [|k]; try reflexivity.
  - cbn in *. rewrite N. reflexivity.
  - cbn [frames_until_failure firstn]. rewrite (H 0) by (cbn; lia). cbn. f_equal. apply IH. split.
    + intros i Hi. apply (H (S i)). cbn. lia.
    + exact N.
Qed.
Lemma fuf_always f : forall reads, (forall i, reads i = Some (f i)) -> forall k, frames_until_failure (Frame := Frame) reads k = map f (seq 0 k).
Proof.
  intros reads H k. revert f reads H. induction k as [|k IH]; intros f reads H; [reflexivity|]. cbn. rewrite H. f_equal.
  rewrite (IH (fun i => f (S i))) by (intros i; apply H). rewrite <- seq_shift, map_map. reflexivity.
Qed.
Lemma frames_yielded a c v acts : video_new W a c = Ret v -> (forall k, ~ (w_elapsed W k == 0)%Q) ->
  (forall fs, has_frames (w_reads W (v_source v)) fs -> snd (use W acts fresh_gens v) = firstn (nexts_in acts) fs) /\
  (forall f, (forall i, w_reads W (v_source v) i = Some (f i)) -> snd (use W acts fresh_gens v) = map f (seq 0 (nexts_in acts))).
Proof.
  intros E T. apply video_new_names in E. destruct E as (_ & _ & _ & _ & _ & _ & R & _ & O & _).
  rewrite use_yields; [|exact T|exact O|reflexivity]. rewrite R. split.
  - intros fs H. apply (fuf_firstn fs (fun i => w_reads W (v_source v) (0 + i)) H).
  - intros f H. apply (fuf_always f (fun i => w_reads W (v_source v) (0 + i)) H).
Qed.

Lemma output_calls a c v cc acts : video_new W a c = Ret v -> codec_for v (output_path W v) cc -> slen cc = 4 ->
  filter to_file (v_calls (fst (use W acts fresh_gens v))) = opens_with W v cc (written acts).
Proof.
  intros E C L. apply video_new_names in E. destruct E as (_ & EC & _ & _ & _ & _ & R & _ & O & Wr).
  rewrite (use_not_writer W cc); [|exact Wr|apply codec_iff; exact C|exact L]. rewrite EC. reflexivity.
Qed.
Lemma loop_calls a c v cc body fs : video_new W a c = Ret v -> (forall k, ~ (w_elapsed W k == 0)%Q) -> codec_for v (output_path W v) cc -> slen cc = 4 ->
  has_frames (w_reads W (v_source v)) fs ->
  v_calls (fst (use W (for_loop body fs) fresh_gens v)) =
    [OpenCapture (v_source v)] ++ opens_with W v cc (flat_map body fs) ++
    (match flat_map body fs with [] => [] | _ => [ReleaseWriter] end) ++ [ReleaseCapture; CloseWindows].
Proof.
  intros E T C L H. apply video_new_names in E. destruct E as (_ & EC & _ & _ & _ & _ & R & _ & O & Wr).
  rewrite (loop_not_writer W T cc); [|exact Wr|apply codec_iff; exact C|exact L|exact O|reflexivity|rewrite R; exact H].
  rewrite EC. destruct (flat_map body fs); reflexivity.
Qed.
Lemma saved_app (a b : list (vcall Frame)) : existsb (fun c => match c with ReleaseWriter => true | _ => false end) a = false -> saved (a ++ b) = saved a ++ saved b.
Proof.
  induction a as [|x a IH]; [reflexivity|]. cbn. destruct x; cbn; intros H; rewrite ?IH by exact H; try reflexivity. discriminate.
Qed.
Lemma saved_writes (fs : list Frame) rest : saved (map WriteFrame fs ++ rest) = fs ++ saved rest.
Proof. induction fs as [|f fs IH]; [reflexivity|]. cbn. rewrite IH. reflexivity. Qed.
Lemma loop_saved a c v cc body fs : video_new W a c = Ret v -> (forall k, ~ (w_elapsed W k == 0)%Q) -> codec_for v (output_path W v) cc -> slen cc = 4 ->
  has_frames (w_reads W (v_source v)) fs -> saved (v_calls (fst (use W (for_loop body fs) fresh_gens v))) = flat_map body fs.
Proof.
  intros E T C L H. rewrite (loop_calls a c v cc body fs E T C L H). cbn [app saved]. unfold opens_with.
  destruct (flat_map body fs) as [|g gs]; [reflexivity|]. cbn [app saved map]. rewrite saved_writes. cbn. rewrite app_nil_r. reflexivity.
Qed.
Lemma not_exhausted a c v acts fs : video_new W a c = Ret v -> (forall k, ~ (w_elapsed W k == 0)%Q) -> has_frames (w_reads W (v_source v)) fs ->
  nexts_in acts <= length fs -> existsb is_release (v_calls (fst (use W acts fresh_gens v))) = false.
Proof.
  intros E T H L. apply video_new_names in E. destruct E as (_ & EC & _ & _ & _ & _ & R & _ & O & Wr).
  rewrite use_no_release; [rewrite EC; reflexivity|exact T|exact O|reflexivity|]. rewrite R.
  rewrite (fuf_firstn fs (fun i => w_reads W (v_source v) (0 + i)) H). rewrite firstn_length. lia.
Qed.
Lemma write_without_codec v f : v_writer v = false -> (forall cc, ~ codec_for v (output_path W v) cc) -> write W f v = (v, Raise ERuntimeError).
Proof. intros Wr H. apply write_fails; [apply codec_none; exact H|exact Wr]. Qed.
Lemma write_first v f cc : v_writer v = false -> codec_for v (output_path W v) cc -> slen cc <> 4 -> write W f v = (v, Raise ETypeError).
Proof.
  intros Wr H L. unfold write. apply codec_iff in H. rewrite Wr, H. destruct (Nat.eqb_spec (slen cc) 4); [contradiction|reflexivity].
Qed.

Lemma show_frame resized f r v :
  ((r = PyInt 1 \/ exists q, r = PyFloat q /\ (q == 1)%Q) -> show W resized f r v = (v_call (Show f) v, Ret tt)) /\
  ((r = PyInt 0 \/ exists q, r = PyFloat q /\ (q == 0)%Q) -> show W resized f r v = (v, Raise EZeroDivisionError)) /\
  (forall z, r = PyInt z -> z <> 0%Z -> z <> 1%Z ->
     let w := (snd (w_shape W f) / z)%Z in let h := (fst (w_shape W f) / z)%Z in
     show W resized f r v = (v_call (Show (resized f w h)) (v_call (Resize f (PyInt w) (PyInt h)) v), Ret tt)) /\
  (forall q, r = PyFloat q -> ~ (q == 0)%Q -> ~ (q == 1)%Q -> exists v', show W resized f r v = (v', Raise ETypeError)).
Proof.
  split; [|split; [|split]].
  - intros [->|(q & -> & H)]; [reflexivity|]. apply Qeq_bool_iff in H. unfold show, is_one. rewrite H. reflexivity.
  - intros [->|(q & -> & H)]; [reflexivity|]. unfold show, is_one, floor_div. destruct (Qeq_bool q 1) eqn:E; [apply Qeq_bool_eq in E; rewrite E in H; discriminate H|].
    apply Qeq_bool_iff in H. rewrite H. reflexivity.
  - intros z -> N0 N1. unfold show, is_one, floor_div. destruct (Z.eqb_spec z 1); [contradiction|]. destruct (Z.eqb_spec z 0); [contradiction|]. reflexivity.
  - intros q -> N0 N1. unfold show, is_one, floor_div. destruct (Qeq_bool q 1) eqn:E; [apply Qeq_bool_eq in E; contradiction|].
    destruct (Qeq_bool q 0) eqn:E'; [apply Qeq_bool_eq in E'; contradiction|]. eauto.
Qed.
End T.

(* ---- frames in a folder ---- *)
Section F.
Context {Frame : Type}.
Lemma folder_frames input save lines n ext dir :
  declares lines "seqLength" (str_of_Z (Z.of_nat n)) -> declares lines "imExt" ext -> declares lines "imDir" dir -> isdigit ext = false -> isdigit dir = false ->
  exists (s s' : fvideo Frame) paths, fvideo_new input save lines false = Ret s /\ fv_list (S n) s = (s', paths) /\ fv_list (S n) (fv_iter s') = (s', paths) /\
    (exists s'', fv_next s' = (s'', Ret None)) /\
    NoDup paths /\ Forall2 (fun k p => exists d digits, folder (join input dir) d /\ frame_digits k digits /\ p = (d ++ digits ++ ext)%string) (numbers n) paths.
Proof.
  intros D1 D2 D3 X1 X2. eexists _, _, _. split; [apply fvideo_silent; eassumption|].
  assert (LF := list_from (Frame := Frame) n input dir ext [] false n 0 eq_refl). cbn zeta in LF. split; [exact LF|]. split; [exact LF|]. split; [|split].
  - eexists. unfold fv_next. cbn [fv_length fv_frame]. destruct (Z.leb_spec (Z.of_nat (S n)) (Z.of_nat n)); [lia|reflexivity].
  - apply frame_paths_nodup.
  - unfold numbers. generalize (seq 0 n). intros l. induction l as [|k l IH]; [constructor|]. cbn [map]. constructor; [|exact IH].
    destruct (frame_path_form input dir ext (Z.of_nat (S k)) ltac:(lia)) as (d & F & g & FD & E). exists d, g. auto.
Qed.
Lemma folder_video input save lines n ext dir fps w h (body : string -> Frame) :
  declares lines "seqLength" (str_of_Z (Z.of_nat n)) -> declares lines "imExt" ext -> declares lines "imDir" dir -> isdigit ext = false -> isdigit dir = false ->
  declares lines "frameRate" (str_of_Z fps) -> declares lines "imWidth" (str_of_Z w) -> declares lines "imHeight" (str_of_Z h) -> (0 <= fps)%Z -> (0 <= w)%Z -> (0 <= h)%Z ->
  1 <= n ->
  exists (s s' : fvideo Frame) paths, fvideo_new input save lines true = Ret s /\ fv_loop body (S n) s = (s', paths) /\ length paths = n /\
    fv_calls s' = OpenWriter (join (join save "videos") (basename input ++ ".mp4")) "mp4v" (inject_Z fps) (w, h) ::
                  map WriteFrame (map body paths) ++ [CloseWindows; ReleaseWriter].
Proof.
  intros D1 D2 D3 X1 X2 D4 D5 D6 L1 L2 L3 L. eexists _, _, _. split; [apply (fvideo_made input save lines n ext dir fps w h); eassumption|].
  split; [exact (loop_from n input dir ext body n 0 _ eq_refl)|]. split; [rewrite map_length, seq_length; reflexivity|]. cbn [fv_calls].
  destruct n as [|n]; [lia|]. rewrite map_map, !map_map. reflexivity.
Qed.
Lemma folder_silent_update f (s : fvideo Frame) : fv_video s = false -> fv_update f s = (s, Raise EAttributeError).
Proof. unfold fv_update. intros ->. reflexivity. Qed.
End F.

(* ---- a world of files ---- *)
Definition w0 : world nat :=
  MkWorld (fun p => String.eqb p "in/a.1.mp4" || String.eqb p "in/a.2.mp4" || String.eqb p "in/video.mp4")%string
          (fun p => String.eqb p "." || String.eqb p "out")%string (fun p => p) (fun _ => 3%Z) (fun _ => 25%Q)
          (fun _ i => nth_error [10; 11; 12] i) (fun k => inject_Z (Z.of_nat (S k))) (fun _ => (480, 640)%Z).
Lemma w0_time k : ~ (w_elapsed w0 k == 0)%Q.
Proof. cbn. unfold Qeq, inject_Z. cbn. lia. Qed.
Definition a0 (path output : string) : vargs := MkVArgs None (Some path) output None "" None "mp4".
Definition v0 (path output : string) : video nat :=
  match video_new w0 (a0 path output) 80 with
  | Ret v => v
  | Raise _ => MkVideo (FromCamera 0) "" None "" 0 "" 0 0 0 false false []
  end.
Lemma w0_frames s : has_frames (w_reads w0 s) [10; 11; 12].
Proof. split; [intros i _; reflexivity|reflexivity]. Qed.
Lemma v0_new path output : (w_isfile w0 (full_path w0 path) = true) -> video_new w0 (a0 path output) 80 = Ret (v0 path output).
Proof.
  intros H. unfold v0. destruct (constructor w0 (a0 path output) 80) as (A & _).
  destruct (A (FromFile (full_path w0 path)) (names_file w0 (a0 path output) path eq_refl eq_refl H ltac:(cbn; lia))) as (v & -> & _). reflexivity.
Qed.

Lemma late_writes_lost : exists (W : world nat) a c v cc fs extra, video_new W a c = Ret v /\ (forall k, ~ (w_elapsed W k == 0)%Q) /\
  codec_for v (output_path W v) cc /\ slen cc = 4 /\ has_frames (w_reads W (v_source v)) fs /\
  let acts := for_loop (fun f => [f]) fs ++ [Write extra] in
  written acts = fs ++ [extra] /\ saved (v_calls (fst (use W acts fresh_gens v))) = fs.
Proof.
  exists w0, (a0 "in/video.mp4" "."), 80%Z, (v0 "in/video.mp4" "."), "mp4v"%string, [10; 11; 12], 13.
  split; [apply v0_new; reflexivity|]. split; [exact w0_time|].
  split; [apply codec_iff; vm_compute; reflexivity|]. split; [reflexivity|]. split; [apply w0_frames|]. split; vm_compute; reflexivity.
Qed.
Lemma outputs_collide : exists (W : world nat) a a' c v v' p p', video_new W a c = Ret v /\ video_new W a' c = Ret v' /\
  v_source v = FromFile p /\ v_source v' = FromFile p' /\ p <> p' /\ w_isdir W (v_output v) = true /\ output_path W v = output_path W v'.
Proof.
  exists w0, (a0 "in/a.1.mp4" "out"), (a0 "in/a.2.mp4" "out"), 80%Z, (v0 "in/a.1.mp4" "out"), (v0 "in/a.2.mp4" "out"), "in/a.1.mp4"%string, "in/a.2.mp4"%string.
  split; [apply v0_new; reflexivity|]. split; [apply v0_new; reflexivity|]. split; [reflexivity|]. split; [reflexivity|]. split; [discriminate|].
  split; vm_compute; reflexivity.
Qed.
Lemma output_overwrites : exists (W : world nat) a c v p, video_new W a c = Ret v /\ v_source v = FromFile p /\ output_path W v = p.
Proof.
  exists w0, (a0 "in/video.mp4" "in/video.mp4"), 80%Z, (v0 "in/video.mp4" "in/video.mp4"), "in/video.mp4"%string.
  split; [apply v0_new; reflexivity|]. split; vm_compute; reflexivity.
Qed.
Lemma cameras_collide {Frame} (W : world Frame) v v' z z' : v_source v = FromCamera z -> v_source v' = FromCamera z' -> v_output v = v_output v' -> v_ext v = v_ext v' ->
  output_path W v = output_path W v'.
Proof. unfold output_path. intros -> -> -> ->. reflexivity. Qed.
Lemma bar_of_video {Frame} (W : world Frame) a columns v : video_new W a columns = Ret v ->
  v_total v = match v_source v with FromFile p => w_count W p | FromCamera _ => 0%Z end /\
  forall title, called (v_source v) title ->
    (va_label a = EmptyString -> v_description v = abbreviate columns title) /\
    (va_label a <> EmptyString -> v_description v = abbreviate columns (title ++ " | " ++ va_label a)).
Proof.
  assert (L : forall t, (va_label a = EmptyString -> abbreviate columns (if String.eqb (va_label a) EmptyString then t else (t ++ " | " ++ va_label a)%string) = abbreviate columns t) /\
    (va_label a <> EmptyString -> abbreviate columns (if String.eqb (va_label a) EmptyString then t else (t ++ " | " ++ va_label a)%string) = abbreviate columns (t ++ " | " ++ va_label a))).
  { intros t. destruct (String.eqb_spec (va_label a) EmptyString); split; intros; congruence. }
  unfold video_new. destruct (va_input a) as [p|], (va_camera a) as [[z|]|]; try discriminate.
  - cbv zeta. generalize (if str_mem "~" p then w_expanduser W p else p). intros path.
    destruct (w_isfile W _); [|discriminate]. destruct (w_count W _ =? 0)%Z; [discriminate|].
    injection 1 as <-. cbn [v_total v_source v_description]. split; [reflexivity|]. intros t C. inversion C as [|d n D S E]; subst.
    unfold basename. rewrite (basename_dir d t) by assumption. apply L.
  - injection 1 as <-. cbn [v_total v_source v_description]. split; [reflexivity|]. intros t C. inversion C; subst. apply L.
Qed.

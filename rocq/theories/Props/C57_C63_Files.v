(** C57-C63: the stabilized camera, cut-outs, and the MOTChallenge files. *)
From Coq Require Import ZArith QArith Qabs Bool Arith Ascii String List Lia Permutation.
From Verif Require Import Model.Num Model.Base Model.Tracker Model.CameraMotion Model.Images Model.Strings Model.Metrics
  Spec.ImageSpec Spec.PointSpec Spec.MetricsSpec Proofs.NumLaws Proofs.RingNums Proofs.ImageProofs Proofs.MetricsProofs Proofs.MetricsMore.
Import ListNotations.
Local Open Scope nat_scope.

(** C57: FixedCamera never fails, all results have the size of the first one, and each pixel is that of the last
    frame covering it, faded once per later call, or black. *)
Theorem C57_stabilized_frames scale att ch f m shots :
  (0 <= scale)%Q -> Forall (fun s => valid_image (fst s)) ((f, m) :: shots) ->
  let all := (f, m) :: shots in let bh := canvas_h scale f in let bw := canvas_w scale f in
  exists bs, film (fc_new scale att) ch all = Ret bs /\ length bs = length all /\
  forall k B, nth_error bs k = Some B ->
    valid_image B /\ Z.of_nat (im_h B) = bh /\ Z.of_nat (im_w B) = bw /\
    forall y x, inside B y x ->
      (forall pre s post, firstn (S k) all = pre ++ s :: post -> covers bh bw s y x ->
         (forall t, In t post -> ~ covers bh bw t y x) ->
         px B y x = option_map (faded (1 - att) (length post)) (shows bh bw s y x)) /\
      ((forall t, In t (firstn (S k) all) -> ~ covers bh bw t y x) -> px B y x = Some (repeat 0%Z ch)).
Proof. exact (film_new scale att ch f m shots). Qed.
Print Assumptions C57_stabilized_frames.

(** Fading never brightens, reaches black after at most as many calls as the value of the channel, and does nothing
    with attenuation 0. *)
Theorem C57_fading att k v : (0 <= att <= 1)%Q -> (0 <= v)%Z ->
  let w := Nat.iter k (fade (1 - att)) v in
  (0 <= w <= v)%Z /\ ((0 < att)%Q -> (v <= Z.of_nat k)%Z -> w = 0%Z) /\ ((att == 0)%Q -> w = v).
Proof. exact (faded_att att k v). Qed.
Print Assumptions C57_fading.

(** A negative scale fails unless both sides of the canvas round to zero. *)
Theorem C57_negative scale att ch f m shots :
  (inject_Z (Z.of_nat (im_w f)) * scale < - (1 # 2) \/ inject_Z (Z.of_nat (im_h f)) * scale < - (1 # 2))%Q ->
  film (fc_new scale att) ch ((f, m) :: shots) = Raise EValueError.
Proof. exact (film_negative scale att ch f m shots). Qed.
Print Assumptions C57_negative.

(** A call asks for the warning that the frame is cropped exactly when some position of the frame comes to lie outside of
    the canvas (that warning is written once, C82). *)
Theorem C57_warning scale att ch f m shots : (0 <= scale)%Q -> Forall (fun s => valid_image (fst s)) ((f, m) :: shots) ->
  let all := (f, m) :: shots in let ws := film_warns (fc_new scale att) ch all in
  length ws = length all /\
  forall k w s, nth_error ws k = Some w -> nth_error all k = Some s -> 0 < im_h (fst s) -> 0 < im_w (fst s) ->
    (w = true <-> cropped (canvas_h scale f) (canvas_w scale f) s).
Proof. exact (film_warning scale att ch f m shots). Qed.
Print Assumptions C57_warning.

(** A still world stays in place: the corner moves by exactly minus the camera motion, up to rounding to pixels. *)
Theorem C57_in_place bh (f : image) (my : Q) :
  let offset := (bh / 2 - Z.of_nat (im_h f) / 2)%Z in
  (Qabs (inject_Z offset - my - inject_Z (corner_y bh f my)) <= 1 # 2)%Q /\
  (forall n : Z, (my == inject_Z n)%Q -> corner_y bh f my = (offset - n)%Z).
Proof. exact (corner_y_near bh f my). Qed.
Print Assumptions C57_in_place.
Theorem C57_in_place_x bw (f : image) (mx : Q) :
  let offset := (bw / 2 - Z.of_nat (im_w f) / 2)%Z in
  (Qabs (inject_Z offset - mx - inject_Z (corner_x bw f mx)) <= 1 # 2)%Q /\
  (forall n : Z, (mx == inject_Z n)%Q -> corner_x bw f mx = (offset - n)%Z).
Proof. exact (corner_x_near bw f mx). Qed.
Print Assumptions C57_in_place_x.

(** A camera that moved by one pixel to the right, with half attenuation on a canvas of twice the size. *)
Definition ex57_frame (v : Z) : image := MkImage 2 2 [[[v]; [v + 1]%Z]; [[v + 2]%Z; [v + 3]%Z]].
Example ex57 :
  film (fc_new 2 (1 # 2)) 1 [(ex57_frame 100, (0, 0)); (ex57_frame 200, (1, 0))]%Q =
  Ret [MkImage 4 4 [[[0]; [0]; [0]; [0]]; [[0]; [100]; [101]; [0]]; [[0]; [102]; [103]; [0]]; [[0]; [0]; [0]; [0]]];
       MkImage 4 4 [[[0]; [0]; [0]; [0]]; [[200]; [201]; [50]; [0]]; [[202]; [203]; [51]; [0]]; [[0]; [0]; [0]; [0]]]]%Z.
Proof. vm_compute. reflexivity. Qed.

(** The frame stays inside up to a motion by one pixel. *)
Example ex57_warning : film_warns (fc_new 2 (1 # 2)) 1 [(ex57_frame 100, (0, 0)); (ex57_frame 200, (1, -1)); (ex57_frame 200, (2, 0))]%Q = [false; false; true].
Proof. vm_compute. reflexivity. Qed.

(** A frame of one row: the width of the canvas is negative, its height rounds to zero. *)
Example ex57_negative : let f := MkImage 1 4 [[[7]; [7]; [7]; [7]]]%Z in
  (inject_Z (Z.of_nat (im_w f)) * - (1 # 4) < - (1 # 2))%Q /\ canvas_h (- (1 # 4)) f = 0%Z /\
  film (fc_new (- (1 # 4)) (1 # 2)) 1 [(f, (0, 0))]%Q = Raise EValueError.
Proof. vm_compute. repeat split; reflexivity. Qed.

(** C58: for non-negative points the cut-out is the part of the image inside their bounding box. *)
Theorem C58_cutout points im :
  valid_image im -> points <> [] -> (forall p, In p points -> (0 <= fst p)%Q /\ (0 <= snd p)%Q) ->
  exists x0 x1 y0 y1 out, get_cutout points im = Ret out /\
    (In x0 (map fst points) /\ forall x, In x (map fst points) -> (x0 <= x)%Q) /\
    (In x1 (map fst points) /\ forall x, In x (map fst points) -> (x <= x1)%Q) /\
    (In y0 (map snd points) /\ forall y, In y (map snd points) -> (y0 <= y)%Q) /\
    (In y1 (map snd points) /\ forall y, In y (map snd points) -> (y <= y1)%Q) /\
    forall y x : Z, (0 <= y)%Z -> (0 <= x)%Z ->
      px_rows out y x = if (trunc y0 + y <? trunc y1)%Z && (trunc x0 + x <? trunc x1)%Z then px im (trunc y0 + y) (trunc x0 + x) else None.
Proof. exact (cutout_spec points im). Qed.
Print Assumptions C58_cutout.

(** The claim for all points is refuted: a box that sticks out to the left gives an empty cut-out although it
    overlaps the image. *)
Theorem C58_refuted : exists points im out,
  valid_image im /\ get_cutout points im = Ret out /\ In (-1, 0)%Q points /\ In (2, 2)%Q points /\
  inside im 1 1 /\ forall y x, px_rows out y x = None.
Proof. exact cutout_negative. Qed.
Print Assumptions C58_refuted.
Example ex58 :
  get_cutout [(1 # 2, 2); (5 # 2, 1)]%Q (MkImage 3 3 [[[1]; [2]; [3]]; [[4]; [5]; [6]]; [[7]; [8]; [9]]]%Z) = Ret [[[4]; [5]]]%Z.
Proof. vm_compute. reflexivity. Qed.

(** C59: search finds the value of the first line whose key starts with the name; with no such line it fails. *)
Theorem C59_search before name v after : str_mem "="%char name = false ->
  (forall kv, In kv before -> ~ starts_with name (fst kv)) ->
  exists i, search (map assignment (before ++ (name, v) :: after)) name = Ret i /\ reads_as v i.
Proof. exact (search_assignment before name v after). Qed.
Print Assumptions C59_search.
Theorem C59_not_found lines name : search lines name = Raise EValueError <-> forall l, In l lines -> ~ starts_with name l.
Proof. exact (search_fails lines name). Qed.
Print Assumptions C59_not_found.
(** Decimal numbers come back as numbers. *)
Theorem C59_numbers n i : (0 <= n)%Z -> reads_as (str_of_Z n) i -> i = InfoInt n.
Proof. exact (reads_number n i). Qed.
Print Assumptions C59_numbers.
(** A longer key before the wanted one hides it. *)
Theorem C59_refuted : exists before name v after i,
  search (map assignment (before ++ (name, v) :: after)) name = Ret i /\ ~ In name (map fst before) /\ ~ reads_as v i.
Proof. exact search_prefix. Qed.
Print Assumptions C59_refuted.
Example ex59 : search (map assignment [("name", "MOT17-02"); ("seqLength", "600"); ("imWidth", "1920")]%string) "seqLength" = Ret (InfoInt 600).
Proof. vm_compute. reflexivity. Qed.

(** C60: one update per frame writes exactly the lines of the frames, in order, numbered from 1; after the last frame
    of the sequence the file is closed and every later update with objects fails and writes nothing. *)
Theorem C60_predictions_file (N : Num) fmt n lines s0 (video : list (list (prediction (N := N)))) boxes :
  search lines "seqLength" = Ret (InfoInt n) -> pt_new lines = Ret s0 -> (Z.of_nat (length video) <= n)%Z -> (0 < n)%Z ->
  Forall2 (Forall2 shows_box) video boxes ->
  exists s, pt_run fmt video s0 = (s, Ret tt) /\ pt_text s = video_text fmt 1 boxes /\
    (pt_open s = true <-> (Z.of_nat (length video) < n)%Z) /\
    (Z.of_nat (length video) = n -> forall ps, ps <> [] -> exists e, pt_update fmt ps None s = (s, Raise e)).
Proof. exact (predictions_file fmt n lines s0 video boxes). Qed.
Print Assumptions C60_predictions_file.

(** C61: the parser yields one list per frame, as often as one iterates, and list k holds exactly the detections of
    the rows with frame number k. *)
Theorem C61_detection_file (N : Num) parse (f32 : N -> N) argsort text lines n M :
  sorts_column argsort -> loadtxt parse text = Ret M -> 2 <= length M -> Forall (fun r => 7 <= length r) M ->
  search lines "seqLength" = Ret (InfoInt n) ->
  exists s ls, dp_new parse f32 argsort text lines = Ret s /\ length ls = Z.to_nat n
    /\ (forall j fuel, Z.to_nat n <= fuel -> drain fuel (dp_iter (nexts j s)) = ls)
    /\ (forall k l, nth_error ls k = Some l -> Permutation l (map (row_detection f32) (rows_of_frame (Z.of_nat (S k)) M))).
Proof. exact (parser_lists parse f32 argsort text lines n M). Qed.
Print Assumptions C61_detection_file.
(** A file with fewer than two rows cannot be read. *)
Theorem C61_short_file (N : Num) parse (f32 : N -> N) argsort text lines M :
  loadtxt parse text = Ret M -> length M < 2 -> dp_new parse f32 argsort text lines = Raise EIndexError.
Proof. exact (parser_short parse f32 argsort text lines M). Qed.
Print Assumptions C61_short_file.

(** C62: what PredictionsTextFile wrote is read back by DetectionFileParser: for every frame the same boxes, in some
    order. *)
Theorem C62_round_trip (N : Num) (fmt : N -> string) parse f32 (OK : text_ok fmt parse f32) argsort lines n s0 video boxes s :
  ring_num N -> (forall v, f32 v = v) -> sorts_column argsort ->
  search lines "seqLength" = Ret (InfoInt n) -> Z.of_nat (length video) = n -> 2 <= length (concat boxes) ->
  pt_new lines = Ret s0 -> Forall2 (Forall2 shows_box) video boxes -> pt_run fmt video s0 = (s, Ret tt) ->
  exists d ls, dp_new parse f32 argsort (pt_text s) lines = Ret d
    /\ (forall j fuel, length video <= fuel -> drain fuel (dp_iter (nexts j d)) = ls)
    /\ Forall2 (fun l xs => Permutation l (map exact_detection xs)) ls boxes.
Proof. exact (written_and_read fmt parse f32 OK argsort lines n s0 video boxes s). Qed.
Print Assumptions C62_round_trip.
(** The same with rounding to float32. *)
Theorem C62_round_trip_float32 (N : Num) (fmt : N -> string) parse f32 (OK : text_ok fmt parse f32) argsort lines n s0 video boxes s :
  sorts_column argsort ->
  search lines "seqLength" = Ret (InfoInt n) -> Z.of_nat (length video) = n -> 2 <= length (concat boxes) ->
  pt_new lines = Ret s0 -> Forall2 (Forall2 shows_box) video boxes -> pt_run fmt video s0 = (s, Ret tt) ->
  exists d ls, dp_new parse f32 argsort (pt_text s) lines = Ret d
    /\ (forall j fuel, length video <= fuel -> drain fuel (dp_iter (nexts j d)) = ls)
    /\ Forall2 (fun l xs => Permutation l (map (box_detection f32) xs)) ls boxes.
Proof. exact (written_and_read_f32 fmt parse f32 OK argsort lines n s0 video boxes s). Qed.
Print Assumptions C62_round_trip_float32.

(** C63: with as many updates as frames, the rows evaluated for each sequence are exactly its boxes. *)
Theorem C63_accumulators (N : Num) (vs : list (session N)) (xs : list (string * list (list (box N)))) names :
  Forall2 good_session vs xs -> Forall2 name_of (map fst xs) names -> NoDup names ->
  exists s, sessions vs ac_new = (s, Ret tt) /\ ac_evaluated s = Ret (combine names (map (fun x => video_rows 1 (snd x)) xs)).
Proof. exact (evaluated_spec vs xs names). Qed.
Print Assumptions C63_accumulators.
(** Refuted without the side conditions: one update too many shifts the following sequences, a video with exactly one
    box cannot be evaluated, and of two sequences of the same name only the last is evaluated. *)
Theorem C63_refuted_extra_update : exists (vs : list (session QNum)) s,
  sessions vs ac_new = (s, Ret tt) /\
  map (fun v => (fst v, fst (snd v))) vs = [("a", 1%Z); ("b", 1%Z)]%string /\
  length (snd (snd (nth 1 vs (EmptyString, (0%Z, []))))) = 1 /\
  exists rows, ac_evaluated s = Ret [("a", rows); ("b", rows)]%string /\
  Forall (fun r => mr_id r = Some 1) rows /\
  Forall (Forall (fun p => pr_id p = Some 2)) (snd (snd (nth 1 vs (EmptyString, (0%Z, []))))).
Proof. exact extra_update. Qed.
Print Assumptions C63_refuted_extra_update.
Theorem C63_refuted_single_box : exists (v : session QNum) s,
  fst (snd v) = Z.of_nat (length (snd (snd v))) /\ sessions [v] ac_new = (s, Ret tt) /\ ac_evaluated s = Raise EValueError.
Proof. exact single_box. Qed.
Print Assumptions C63_refuted_single_box.
Theorem C63_refuted_same_name : exists (vs : list (session QNum)) s rows,
  map fst vs = ["train/MOT17-02"; "test/MOT17-02"]%string /\ sessions vs ac_new = (s, Ret tt) /\
  ac_evaluated s = Ret [("MOT17-02"%string, rows)] /\ Forall (fun r => mr_id r = Some 2) rows.
Proof. exact same_name. Qed.
Print Assumptions C63_refuted_same_name.

(** Updates before create_accumulator raise and change nothing; if the first create_accumulator fails, so do all
    updates after it, no predictions are kept, and there is nothing to evaluate. *)
Theorem C63_not_created (N : Num) (p : list (prediction (N := N))) : ac_update p ac_new = (ac_new, Raise EAttributeError).
Proof. exact (update_not_started N p). Qed.
Print Assumptions C63_not_created.
Theorem C63_failed_create (N : Num) path lines (ps : list (list (prediction (N := N)))) s e : ac_create path lines ac_new = (s, Raise e) ->
  let s' := fold_left (fun s p => fst (ac_update p s)) ps s in
  (forall p, exists e', snd (ac_update p s') = Raise e') /\ ac_matrixes s' = [] /\ ac_evaluated s' = Raise EIndexError.
Proof. exact (failed_start N path lines ps s e). Qed.
Print Assumptions C63_failed_create.
Example ex63_failed : snd (ac_create (N := QNum) "train/a" ["seqLength=ten"%string] ac_new) = Raise ETypeError /\
  snd (ac_create (N := QNum) "train/a" ["imWidth=10"%string] ac_new) = Raise EValueError.
Proof. vm_compute. auto. Qed.

(** If create_accumulator fails later on, updates go on with what is left of the progress bar before: the rows collected
    until it ends are numbered from 1 and stored for the new path. *)
Theorem C63_failed_later (N : Num) path lines (s s' : accs (N := N)) e n ps video : ac_create path lines s = (s', Raise e) -> ac_left s = Some n ->
  Forall2 (Forall2 shows_box) ps video -> length ps = S n -> length (concat video) <> 1 ->
  exists s'' m, updates ps s' = (s'', Ret tt) /\ ac_matrixes s'' = ac_matrixes s ++ [m] /\ load_motchallenge m (-1) = Ret (video_rows 1 video) /\
    ac_paths s'' = ac_paths s ++ [path].
Proof. exact (failed_later N path lines s s' e n ps video). Qed.
Print Assumptions C63_failed_later.
Example ex63_later : let s := fst (ac_create (N := QNum) "train/a" ["seqLength=3"%string] ac_new) in
  ac_left s = Some 2 /\ snd (ac_create "train/b" ["seqLength=ten"%string] s) = Raise ETypeError.
Proof. vm_compute. auto. Qed.

(** A video of two frames, its file, what is read back and what is evaluated. *)
Definition ex60_video : list (list (prediction (N := QNum))) :=
  let q (z : Z) : QNum := inject_Z z in
  [[MkPred (Some 1) [[q 1%Z; q 2%Z]; [q 4%Z; q 6%Z]]];
   [MkPred (Some 1) [[q 2%Z; q 2%Z]; [q 5%Z; q 6%Z]]; MkPred (Some 2) [[q 0%Z; q 0%Z]; [q 1%Z; q 1%Z]]]].
Definition ex60_boxes : list (list (box QNum)) :=
  let q (z : Z) : QNum := inject_Z z in
  [[MkBox 1 (q 1%Z) (q 2%Z) (q 4%Z) (q 6%Z)]; [MkBox 1 (q 2%Z) (q 2%Z) (q 5%Z) (q 6%Z); MkBox 2 (q 0%Z) (q 0%Z) (q 1%Z) (q 1%Z)]].
Example ex60_shows : Forall2 (Forall2 shows_box) ex60_video ex60_boxes.
Proof. repeat constructor; do 3 eexists; reflexivity. Qed.
Example ex60_text_ok : text_ok (N := QNum) q_fmt q_parse (fun x => x).
Proof. exact q_text_ok. Qed.
Example ex62_text_ok : ring_num QcNum /\ text_ok (N := QcNum) qc_fmt qc_parse (fun x => x).
Proof. exact (conj QcNum_ring qc_text_ok). Qed.
Definition ex60_file : string :=
  match pt_new ["seqLength=2"%string] with Ret s0 => pt_text (fst (pt_run q_fmt ex60_video s0)) | Raise _ => EmptyString end.
Example ex60 : ex60_file =
  ("1,1,1/1,2/1,3/1,4/1,-1,-1,-1,-1" ++ String newline ("2,1,2/1,2/1,3/1,4/1,-1,-1,-1,-1" ++ String newline ("2,2,0/1,0/1,1/1,1/1,-1,-1,-1,-1" ++ String newline "")))%string.
Proof. vm_compute. reflexivity. Qed.
Example ex61 :
  match dp_new q_parse (fun x => x) (fun v => seq 0 (length v)) ex60_file ["seqLength=2"%string] with
  | Ret d => map (map fd_points) (drain 2 d) = map (map fd_points) (map (map exact_detection) ex60_boxes)
  | Raise _ => False
  end.
Proof. vm_compute. reflexivity. Qed.
Example ex63 : good_session (N := QNum) ("train/a"%string, (2%Z, ex60_video)) ("train/a"%string, ex60_boxes)
  /\ name_of "train/a" "a".
Proof.
  split; [|split; [reflexivity|right; exists "train"%string; reflexivity]].
  split; [reflexivity|]. split; [reflexivity|]. split; [discriminate|]. split; [exact ex60_shows|discriminate].
Qed.

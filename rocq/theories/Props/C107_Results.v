(** C107: the predictions file of a tracked video. *)
From Coq Require Import ZArith QArith Bool List Arith Lia String.
From Verif Require Import Model.Num Model.Base Model.Strings Model.Matching Model.Filter Model.Float32 Model.Tracker Model.Metrics
  Spec.MatchingSpec Spec.ExampleTracker Spec.ExampleVideo Spec.ExamplePoints Spec.LabelSpec Spec.ProgressSpec.
From Verif Require Import Spec.CallSpec Spec.PointSpec Spec.MetricsSpec Spec.ResultSpec.
From Verif Require Import Proofs.NumLaws Proofs.Float32Proofs Proofs.Progress Proofs.ProgressBuiltin Proofs.FilterTracker Proofs.NearExamples Proofs.ResultProofs Proofs.ResultExamples.
Import ListNotations.
Local Open Scope nat_scope.

(** C107: the calls return, writing their results succeeds, and in the file every id occurs at most once per frame, stands for one object throughout,
    and is among 1, ..., total_object_count.  Without re-identification all these ids occur, and each of them in consecutive frames. *)
Theorem C107_predictions_file (N : Num) (laws : NumLaws N) (FO : filter_ops N) wf n dim (c : tconf FO) ins heap g dummy fmt lines len s0 :
  regular FO wf -> 2 <= n -> 2 <= dim -> usable n dim c -> well_formed_calls n dim ins ->
  search lines "seqLength" = Ret (InfoInt len) -> pt_new lines = Ret s0 -> (Z.of_nat (List.length ins) <= len)%Z -> (0 < len)%Z ->
  exists fs boxes s, play c (new_tracker heap g dummy) ins = Some fs /\ Forall2 (Forall2 shows_box) (map predictions_of fs) boxes /\
    pt_run fmt (map predictions_of fs) s0 = (s, Ret tt) /\ pt_text s = video_text fmt 1 boxes /\
    ids_name_objects fs /\ one_box_each (total_object_count (final (new_tracker heap g dummy) fs)) boxes /\
    (tc_reid_distance c = None -> without_gaps boxes) /\
    (tc_reid_distance c = None -> (0 <= tc_delay c)%Z -> all_ids (total_object_count (final (new_tracker heap g dummy) fs)) boxes).
Proof. exact (file_of_video laws FO wf n dim c ins heap g dummy fmt lines len s0). Qed.
Print Assumptions C107_predictions_file.

(** With re-identification an id can be missing for some frames and come back. *)
Theorem C107_gaps_refuted : exists (FO : filter_ops QNum) wf (c : tconf FO) ins heap g dummy fs boxes,
  regular FO wf /\ usable 2 2 c /\ well_formed_calls 2 2 ins /\ play c (new_tracker heap g dummy) ins = Some fs /\
  Forall2 (Forall2 shows_box) (map predictions_of fs) boxes /\ ~ without_gaps boxes.
Proof. exact gaps_refuted. Qed.
Print Assumptions C107_gaps_refuted.

(** The same for the accumulators: in the table that is compared with the ground truth of a sequence no two rows have the same frame and id. *)
Theorem C107_accumulators (N : Num) (laws : NumLaws N) (vs : list (session N)) names :
  Forall tracked_session vs -> Forall2 name_of (map fst vs) names -> NoDup names ->
  exists s (xs : list (string * list (list (box N)))), sessions vs ac_new = (s, Ret tt) /\ Forall2 good_session vs xs /\
    ac_evaluated s = Ret (combine names (map (fun x => video_rows 1 (snd x)) xs)) /\
    Forall (fun x => NoDup (map row_key (video_rows 1 (snd x)))) xs.
Proof. exact (rows_of_videos laws vs names). Qed.
Print Assumptions C107_accumulators.

(* ---- two boxes, one of which disappears and comes back as a new object ---- *)
Example C107_example_usable : regular exF nf_wf /\ usable 2 2 ex_conf /\ well_formed_calls 2 2 bx_ins /\
  tc_reid_distance ex_conf = None /\ (0 <= tc_delay ex_conf)%Z.
Proof. split; [exact bx_regular|]. split; [exact bx_usable|]. split; [exact bx_calls|]. split; [reflexivity|cbn; lia]. Qed.
Example C107_example : let s := new_tracker (FO := exF) (fun _ => ex_det 0) 0 ex_dummy in
  play ex_conf s bx_ins = Some (frames ex_conf s bx_ins) /\
  map (fun f => map (fun p => pr_id p) (predictions_of f)) (frames ex_conf s bx_ins) = [[]; [Some 2; Some 1]; [Some 2; Some 1]; [Some 2; Some 1]; []; []; [Some 3]] /\
  total_object_count (final s (frames ex_conf s bx_ins)) = 3.
Proof. split; [apply plays; vm_compute; reflexivity|]. split; vm_compute; reflexivity. Qed.
Example C107_example_session : tracked_session ("a/b"%string, (Z.of_nat 7, map predictions_of (frames ex_conf (new_tracker (FO := exF) (fun _ => ex_det 0) 0 ex_dummy) bx_ins))).
Proof. exact bx_session. Qed.

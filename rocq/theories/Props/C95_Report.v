(** C95: the report of [Accumulators.compute_metrics], and saving and printing it.  motmetrics is a parameter. *)
From Coq Require Import ZArith QArith Arith String List.
From Verif Require Import Model.Num Model.Base Model.Metrics Model.Report Spec.ReportSpec Proofs.ReportProofs Proofs.ReportMore.
Import ListNotations.
Local Open Scope nat_scope.

(** The report has one line per different name, in the order of their first appearance, and each compares the ground
    truth and the predictions of the same position: the last path with the name. *)
Theorem C95_report (N : Num) (G C : Type) (ground_truth : string -> result G) (compare : G -> list (mrow (N := N)) -> C)
    (s : accs (N := N)) (cs : list C) (names : list string) :
  eval_motChallenge ground_truth compare s = Ret (cs, names) ->
  names = first_seen (map basename (ac_paths s)) /\ Forall2 (compared ground_truth compare s) cs names.
Proof. exact (report ground_truth compare s cs names). Qed.
Print Assumptions C95_report.

(** There is a report exactly if every ground truth can be read, no video lacks its last frame and none has exactly one
    box. *)
Theorem C95_succeeds (N : Num) (G C : Type) (ground_truth : string -> result G) (compare : G -> list (mrow (N := N)) -> C)
    (s : accs (N := N)) :
  (exists r, eval_motChallenge ground_truth compare s = Ret r) <->
  Forall (fun p => exists g, ground_truth p = Ret g) (ac_paths s) /\
  length (ac_paths s) <= length (ac_matrixes s) /\
  forall n m, n < length (ac_paths s) -> nth_error (ac_matrixes s) n = Some m -> ~ exists r, m = PFlat r.
Proof. exact (eval_succeeds ground_truth compare s). Qed.
Print Assumptions C95_succeeds.

(** compare_dataframes(gts, ts): the sequences that have a ground truth, in the order of [ts], each compared with a ground truth of its name. *)
Theorem C95_compare (N : Num) (G C : Type) (compare : G -> list (mrow (N := N)) -> C) gts ts cs names :
  compare_dataframes compare gts ts = (cs, names) ->
  let known := fun k : string => existsb (String.eqb k) (map fst gts) in
  names = filter known (map fst ts) /\ length cs = length names /\
  forall n k rows, nth_error (filter (fun x => known (fst x)) ts) n = Some (k, rows) -> exists g, In (k, g) gts /\ nth_error cs n = Some (compare g rows).
Proof. exact (compare_all compare gts ts cs names). Qed.
Print Assumptions C95_compare.
Example ex95_compare : compare_dataframes (N := QNum) (fun (g : nat) rows => (g, length rows)) [("b", 7); ("c", 8)]%string [("a", []); ("c", []); ("b", [])]%string
  = ([(8, 0); (7, 0)], ["c"; "b"]%string).
Proof. reflexivity. Qed.

(** After [compute_metrics] any number of saves writes exactly the text of the report, touches no other file, and
    printing prints it; a second [compute_metrics] on the same accumulators changes nothing. *)
Theorem C95_saved (N : Num) (G C : Type) (ground_truth : string -> result G) (compare : G -> list (mrow (N := N)) -> C)
    (render : list C -> list string -> string) (b b' : bench (N := N)) (paths : list string) :
  compute_metrics ground_truth compare render true b = (b', Ret tt) ->
  exists cs names, eval_motChallenge ground_truth compare (b_accs b) = Ret (cs, names) /\
  let text := render cs names in
  let b2 := fold_left (fun x p => fst (save_metrics p x)) paths b' in
  (forall p, dict_get p (b_files b2) = if existsb (String.eqb p) paths then Some text else dict_get p (b_files b)) /\
  print_metrics b2 = (MkBench (b_accs b2) (b_summary b2) (b_files b2) (b_out b ++ [text]), Ret tt) /\
  compute_metrics ground_truth compare render true b2 = (b2, Ret tt).
Proof. exact (saved ground_truth compare render b b' paths). Qed.
Print Assumptions C95_saved.

(** Without motmetrics both the first and the last step raise ImportError and change nothing. *)
Theorem C95_missing (N : Num) (G C : Type) (ground_truth : string -> result G) (compare : G -> list (mrow (N := N)) -> C)
    (render : list C -> list string -> string) (b : bench (N := N)) path lines :
  create_accumulator false path lines b = (b, Raise EImportError) /\
  compute_metrics ground_truth compare render false b = (b, Raise EImportError).
Proof. exact (conj eq_refl eq_refl). Qed.
Print Assumptions C95_missing.

(** That a call that raises leaves the files alone is refuted: saving before computing empties the file. *)
Theorem C95_refuted_save : exists (b : bench (N := QNum)) path old,
  dict_get path (b_files b) = Some old /\ old <> EmptyString /\
  snd (save_metrics path b) = Raise EAttributeError /\ dict_get path (b_files (fst (save_metrics path b))) = Some EmptyString.
Proof. exact save_empties. Qed.
Print Assumptions C95_refuted_save.

(** Three videos, two of them with the same name. *)
Definition ex95_row (id : nat) : mrow (N := QNum) := MkRow (N := QNum) 1%Z (Some id) 5%Q 5%Q 2%Q 2%Q.
Definition ex95 : accs (N := QNum) :=
  MkAccs [PMatrix [ex95_row 1; ex95_row 2]; PEmpty; PMatrix [ex95_row 3; ex95_row 4]]
         ["train/02"; "train/04"; "test/02"]%string (Some 1%Z) PEmpty (Some 0).
Example ex95_report :
  eval_motChallenge (fun p => Ret p) (fun g rows => (g, map mr_id rows)) ex95 =
  Ret ([("test/02", [Some 3; Some 4]); ("train/04", [])], ["02"; "04"])%string.
Proof. vm_compute. reflexivity. Qed.
Example ex95_unfinished :
  eval_motChallenge (fun p => Ret p) (fun g rows => (g, map mr_id rows)) (MkAccs (N := QNum) [PEmpty] ["a"; "b"]%string (Some 1%Z) PEmpty (Some 0)) = Raise EIndexError.
Proof. vm_compute. reflexivity. Qed.

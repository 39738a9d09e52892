(** norfair/metrics.py: [Accumulators.compute_metrics], [save_metrics], [print_metrics], [compare_dataframes] and
    [eval_motChallenge].  motmetrics itself is a parameter: [ground_truth] stands for [mm.io.loadtxt], [compare] for
    [mm.utils.compare_to_groundtruth], [render] for [mh.compute_many] followed by [mm.io.render_summary]. *)
From Coq Require Import ZArith QArith Bool String List.
From Verif Require Import Model.Num Model.Base Model.Metrics.
Import ListNotations.

Section Report.
Context {N : Num} {G C : Type}.
Variable ground_truth : string -> result G.
Variable compare : G -> list (mrow (N := N)) -> C.
Variable render : list C -> list string -> string.

(** [k in d] and [d[k]] *)
Fixpoint dict_get {A} (k : string) (d : list (string * A)) : option A :=
  match d with
  | [] => None
  | (k', v) :: d' => if String.eqb k' k then Some v else dict_get k d'
  end.

(** metrics.py:297-309 [compare_dataframes]: the sequences without ground truth are left out. *)
Fixpoint compare_dataframes (gts : list (string * G)) (ts : list (string * list mrow)) : list C * list string :=
  match ts with
  | [] => ([], [])
  | (k, rows) :: ts' =>
    let (cs, names) := compare_dataframes gts ts' in
    match dict_get k gts with
    | Some g => (compare g rows :: cs, k :: names)
    | None => (cs, names)
    end
  end.

(** metrics.py:312-348 [eval_motChallenge]: all ground truths are read first. *)
Definition eval_motChallenge (s : accs (N := N)) : result (list C * list string) :=
  match map_result (fun p => match ground_truth p with Ret g => Ret (basename p, g) | Raise e => Raise e end) (ac_paths s) with
  | Raise e => Raise e
  | Ret l =>
    match ac_evaluated s with
    | Raise e => Raise e
    | Ret ts => Ret (compare_dataframes (dict_of l) ts)
    end
  end.

(** An [Accumulators] object with its attribute [summary_text], which [__init__] does not set; the files
    of the disk with their contents; what was printed. *)
Record bench := MkBench { b_accs : accs (N := N); b_summary : option string; b_files : list (string * string); b_out : list string }.

(** metrics.py:217-233 [compute_metrics]; [installed]: motmetrics could be imported (otherwise utils.py:79-85). *)
Definition compute_metrics (installed : bool) (b : bench) : bench * result unit :=
  if installed then
    match eval_motChallenge (b_accs b) with
    | Raise e => (b, Raise e)
    | Ret (cs, names) => (MkBench (b_accs b) (Some (render cs names)) (b_files b) (b_out b), Ret tt)
    end
  else (b, Raise EImportError).

(** metrics.py:235-242 [save_metrics]: the file is opened for writing, which empties it, before the text is looked up. *)
Definition save_metrics (path : string) (b : bench) : bench * result unit :=
  match b_summary b with
  | Some text => (MkBench (b_accs b) (b_summary b) (dict_set path text (b_files b)) (b_out b), Ret tt)
  | None => (MkBench (b_accs b) (b_summary b) (dict_set path EmptyString (b_files b)) (b_out b), Raise EAttributeError)
  end.

(** metrics.py:244-245 *)
Definition print_metrics (b : bench) : bench * result unit :=
  match b_summary b with
  | Some text => (MkBench (b_accs b) (b_summary b) (b_files b) (b_out b ++ [text]), Ret tt)
  | None => (b, Raise EAttributeError)
  end.

(** metrics.py:168-188 with its first statement, [mm.metrics]. *)
Definition create_accumulator (installed : bool) (path : string) (lines : list string) (b : bench) : bench * result unit :=
  if installed then
    let (a, r) := ac_create path lines (b_accs b) in (MkBench a (b_summary b) (b_files b) (b_out b), r)
  else (b, Raise EImportError).
End Report.

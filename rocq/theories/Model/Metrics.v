(** norfair/metrics.py: MOTChallenge files and accumulators.
    The file system, progress bars, motmetrics and pandas are not modelled; a file is its text. *)
From Coq Require Import ZArith QArith Bool Arith Ascii String List.
From Verif Require Import Model.Num Model.Base Model.Strings.
Import ListNotations.
Local Open Scope nat_scope.

(* ------------------------------------------------------------------------------------------ *)
(** ** InformationFile *)

(** What [search] returns: an int or a string. *)
Inductive info := InfoInt (z : Z) | InfoStr (s : string).

(** metrics.py:27-37 [InformationFile.search] on the lines of the file. *)
Fixpoint search (lines : list string) (variable_name : string) : result info :=
  match lines with
  | [] => Raise EValueError
  | line :: lines' =>
    if String.eqb (str_to (Z.of_nat (slen variable_name)) line) variable_name then
      let result := str_from (Z.of_nat (slen variable_name) + 1) line in
      Ret (if isdigit result then InfoInt (int_of_digits result) else InfoStr result)
    else search lines' variable_name
  end.

Section Metrics.
Context {N : Num}.
(** [str(x)] of a number, and what [np.loadtxt] makes of a cell (float32). *)
Context (fmt : N -> string) (parse : string -> option N) (f32 : N -> N).

(** A tracked object as the writers see it. *)
Record prediction := MkPred { pr_id : option nat; pr_estimate : points N }.

(** [estimate[i, j]] *)
Definition at2 (p : points N) (i j : nat) : result N :=
  match nth_error p i with
  | Some row => match nth_error row j with Some v => Ret v | None => Raise EIndexError end
  | None => Raise EIndexError
  end.

(** left, top, width and height of a prediction, metrics.py:76-79 and 196-199. *)
Definition box_of (p : points N) : result (N * N * N * N) :=
  match at2 p 0 0, at2 p 0 1, at2 p 1 0, at2 p 1 1 with
  | Ret l, Ret t, Ret r, Ret b => Ret (l, t, nsub r l, nsub b t)
  | _, _, _, _ => Raise EIndexError
  end.

(* ------------------------------------------------------------------------------------------ *)
(** ** PredictionsTextFile *)

Record ptext := MkPT { pt_length : info; pt_frame : Z; pt_open : bool; pt_text : string }.
(** metrics.py:47-64 *)
Definition pt_new (lines : list string) : result ptext :=
  match search lines "seqLength" with Ret l => Ret (MkPT l 1 true EmptyString) | Raise e => Raise e end.

(** metrics.py:74-93: the line of one object. *)
Definition row_text (frame : Z) (id : nat) (l t w h : N) : string :=
  (str_of_Z frame ++ "," ++ str_of_Z (Z.of_nat id) ++ "," ++ fmt l ++ "," ++ fmt t ++ "," ++ fmt w ++ "," ++ fmt h ++
   ",-1,-1,-1,-1" ++ String newline EmptyString)%string.

(** metrics.py:73-95: the loop over the predictions.  [int(None)] raises TypeError, writing to a closed
    file ValueError; what was written before stays. *)
Fixpoint pt_write (frame : Z) (preds : list prediction) (s : ptext) : ptext * result unit :=
  match preds with
  | [] => (s, Ret tt)
  | p :: preds' =>
    match pr_id p with
    | None => (s, Raise ETypeError)
    | Some id =>
      match box_of (pr_estimate p) with
      | Raise e => (s, Raise e)
      | Ret (l, t, w, h) =>
        if pt_open s then
          pt_write frame preds' (MkPT (pt_length s) (pt_frame s) true (pt_text s ++ row_text frame id l t w h)%string)
        else (s, Raise EValueError)
      end
    end
  end.

(** metrics.py:66-100 [PredictionsTextFile.update]. *)
Definition pt_update (preds : list prediction) (frame_number : option Z) (s : ptext) : ptext * result unit :=
  let frame := match frame_number with Some f => f | None => pt_frame s end in
  match pt_write frame preds s with
  | (s1, Raise e) => (s1, Raise e)
  | (s1, Ret _) =>
    let s2 := MkPT (pt_length s1) (pt_frame s1 + 1) (pt_open s1) (pt_text s1) in
    match pt_length s2 with
    | InfoStr _ => (s2, Raise ETypeError)
    | InfoInt n => ((if (n <? pt_frame s2)%Z then MkPT (pt_length s2) (pt_frame s2) false (pt_text s2) else s2), Ret tt)
    end
  end.

(* ------------------------------------------------------------------------------------------ *)
(** ** DetectionFileParser *)

(** [np.loadtxt(path, dtype="f", delimiter=",")]: the non-empty lines, all with the same number of cells.
    SIMPLIFICATION: comments and white space are not modelled. *)
Fixpoint map_option {A B} (f : A -> option B) (l : list A) : option (list B) :=
  match l with
  | [] => Some []
  | a :: l' => match f a, map_option f l' with Some b, Some l'' => Some (b :: l'') | _, _ => None end
  end.
Definition parse_line (line : string) : option (list N) := map_option parse (split_on "," line).
Definition loadtxt (text : string) : result (list (list N)) :=
  match map_option parse_line (filter (fun l => negb (String.eqb l EmptyString)) (split_on newline text)) with
  | None => Raise EValueError
  | Some [] => Ret []
  | Some (r :: rows) => if forallb (fun r' => Nat.eqb (length r') (length r)) rows then Ret (r :: rows) else Raise EValueError
  end.

(** The detection made of one row, metrics.py:140-145: two corners and two equal scores. *)
Record filedet := MkFileDet { fd_points : points N; fd_scores : list N }.
Definition det_of_row (r : list N) : result filedet :=
  match nth_error r 2, nth_error r 3, nth_error r 4, nth_error r 5, nth_error r 6 with
  | Some a, Some b, Some c, Some d, Some s => Ret (MkFileDet [[a; b]; [c; d]] [s; s])
  | _, _, _, _, _ => Raise EIndexError
  end.

(** metrics.py:117-122: columns 4 and 5 become the bottom right corner (in float32). *)
Definition to_corners (r : list N) : result (list N) :=
  match r with
  | a0 :: a1 :: l :: t :: w :: h :: rest => Ret (a0 :: a1 :: l :: t :: f32 (nadd l w) :: f32 (nadd t h) :: rest)
  | _ => Raise EIndexError
  end.

Fixpoint map_result {A B} (f : A -> result B) (l : list A) : result (list B) :=
  match l with
  | [] => Ret []
  | a :: l' =>
    match f a with
    | Raise e => Raise e
    | Ret b => match map_result f l' with Ret l'' => Ret (b :: l'') | Raise e => Raise e end
    end
  end.

(** metrics.py:133-147 [get_dets_from_frame]. *)
Definition dets_of_frame (M : list (list N)) (frame : Z) : result (list filedet) :=
  map_result det_of_row (filter (fun r => match r with a :: _ => neqb a (nofQ (inject_Z frame)) | [] => false end) M).

Record dparser := MkParser { dp_length : Z; dp_frame : Z; dp_lists : list (list filedet) }.

(** [range(1, n + 1)] *)
Definition range1 (n : Z) : list Z := map (fun k => Z.of_nat (S k)) (seq 0 (Z.to_nat n)).

(** metrics.py:106-131 [DetectionFileParser.__init__]; [argsort] is [np.argsort] (quicksort, not stable).
    With a single row [loadtxt] returns a vector and with none an empty one: [[:, 0]] raises IndexError. *)
Definition dp_new (argsort : list N -> list nat) (text : string) (lines : list string) : result dparser :=
  match loadtxt text with
  | Raise e => Raise e
  | Ret M =>
    if Nat.ltb (length M) 2 then Raise EIndexError
    else
      let column := map (fun r => hd n0 r) M in
      let M := map (fun i => nth i M []) (argsort column) in
      match map_result to_corners M with
      | Raise e => Raise e
      | Ret M =>
        match search lines "seqLength" with
        | Raise e => Raise e
        | Ret (InfoStr _) => Raise ETypeError
        | Ret (InfoInt n) =>
          match map_result (dets_of_frame M) (range1 n) with
          | Raise e => Raise e
          | Ret ls => Ret (MkParser n 1 ls)
          end
        end
      end
  end.

(** metrics.py:149-160; [None] is StopIteration. *)
Definition dp_iter (s : dparser) : dparser := MkParser (dp_length s) 1 (dp_lists s).
Definition dp_next (s : dparser) : dparser * option (list filedet) :=
  if (dp_frame s <=? dp_length s)%Z then
    let s' := MkParser (dp_length s) (dp_frame s + 1) (dp_lists s) in
    (s', nth_error (dp_lists s) (Z.to_nat (dp_frame s' - 2)))
  else (s, None).

(* ------------------------------------------------------------------------------------------ *)
(** ** Accumulators *)

(** A row [frame, id, left, top, width, height, -1, -1, -1, -1]; only the varying part is kept. *)
Record mrow := MkRow { mr_frame : Z; mr_id : option nat; mr_left : N; mr_top : N; mr_width : N; mr_height : N }.
(** [self.matrix_predictions]: an empty list, a flat list of ten numbers, or a matrix. *)
Inductive pmatrix := PEmpty | PFlat (r : mrow) | PMatrix (rows : list mrow).

Record accs := MkAccs { ac_matrixes : list pmatrix; ac_paths : list string; ac_frame : option Z; ac_current : pmatrix; ac_left : option nat }.
(** metrics.py:164-166.  [frame_number] and [progress_bar_iter] do not exist yet ([None]). *)
Definition ac_new : accs := MkAccs [] [] None PEmpty None.
(** metrics.py:168-188; the progress bar runs over [range(length - 1)]. *)
Definition ac_create (path : string) (lines : list string) (s : accs) : accs * result unit :=
  let s1 := MkAccs (ac_matrixes s) (ac_paths s ++ [path]) (Some 1%Z) PEmpty (ac_left s) in
  match search lines "seqLength" with
  | Raise e => (s1, Raise e)
  | Ret (InfoStr _) => (s1, Raise ETypeError)
  | Ret (InfoInt n) => (MkAccs (ac_matrixes s1) (ac_paths s1) (Some 1%Z) PEmpty (Some (Z.to_nat (n - 1))), Ret tt)
  end.

(** metrics.py:205-208 *)
Definition add_row (r : mrow) (m : pmatrix) : pmatrix :=
  match m with PEmpty => PFlat r | PFlat q => PMatrix [q; r] | PMatrix rows => PMatrix (rows ++ [r]) end.
Fixpoint ac_rows (frame : Z) (preds : list prediction) (s : accs) : accs * result unit :=
  match preds with
  | [] => (s, Ret tt)
  | p :: preds' =>
    match box_of (pr_estimate p) with
    | Raise e => (s, Raise e)
    | Ret (l, t, w, h) =>
      ac_rows frame preds' (MkAccs (ac_matrixes s) (ac_paths s) (ac_frame s) (add_row (MkRow frame (pr_id p) l t w h) (ac_current s)) (ac_left s))
    end
  end.
(** metrics.py:190-215 [Accumulators.update]: when the progress bar is exhausted the matrix is stored.  Without
    [frame_number] or [progress_bar_iter] it raises AttributeError. *)
Definition ac_update (preds : list prediction) (s : accs) : accs * result unit :=
  match ac_frame s with
  | None => (s, Raise EAttributeError)
  | Some frame =>
    match ac_rows frame preds s with
    | (s1, Raise e) => (s1, Raise e)
    | (s1, Ret _) =>
      let next := Some (frame + 1)%Z in
      match ac_left s1 with
      | None => (MkAccs (ac_matrixes s1) (ac_paths s1) next (ac_current s1) None, Raise EAttributeError)
      | Some (S k) => (MkAccs (ac_matrixes s1) (ac_paths s1) next (ac_current s1) (Some k), Ret tt)
      | Some O => (MkAccs (ac_matrixes s1 ++ [ac_current s1]) (ac_paths s1) next (ac_current s1) (Some O), Ret tt)
      end
    end
  end.

(** metrics.py:247-294 [load_motchallenge] on the rows written above (all have confidence -1):
    [pd.DataFrame] of a flat list with ten column names raises ValueError. *)
Definition load_motchallenge (m : pmatrix) (min_confidence : Q) : result (list mrow) :=
  match m with
  | PFlat _ => Raise EValueError
  | PEmpty => Ret []
  | PMatrix rows =>
    Ret (map (fun r => MkRow (mr_frame r) (mr_id r) (nsub (mr_left r) n1) (nsub (mr_top r) n1) (mr_width r) (mr_height r))
             (if Qle_bool min_confidence (-1) then rows else []))
  end.

(** [os.path.split(p)[1]] *)
Definition basename (p : string) : string := last (split_on "/" p) EmptyString.
(** [OrderedDict(pairs)]: a later pair replaces the value of an equal key. *)
Fixpoint dict_set {A} (k : string) (v : A) (d : list (string * A)) : list (string * A) :=
  match d with
  | [] => [(k, v)]
  | (k', v') :: d' => if String.eqb k' k then (k', v) :: d' else (k', v') :: dict_set k v d'
  end.
Definition dict_of {A} (l : list (string * A)) : list (string * A) := fold_left (fun d kv => dict_set (fst kv) (snd kv) d) l [].

(** metrics.py:324-330: the predictions compared to the ground truth of each sequence name. *)
Definition ac_evaluated (s : accs) : result (list (string * list mrow)) :=
  match
    map_result (fun n =>
      match nth_error (ac_matrixes s) n with
      | None => Raise EIndexError
      | Some m => match load_motchallenge m (-1) with Ret rows => Ret (basename (nth n (ac_paths s) EmptyString), rows) | Raise e => Raise e end
      end) (seq 0 (length (ac_paths s)))
  with
  | Ret l => Ret (dict_of l)
  | Raise e => Raise e
  end.
End Metrics.

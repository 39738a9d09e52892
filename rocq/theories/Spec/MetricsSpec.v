(** Vocabulary for the MOTChallenge files. *)
From Coq Require Import ZArith QArith Bool Ascii String List Permutation.
From Verif Require Import Model.Num Model.Base Model.Strings Model.Metrics.
Import ListNotations.
Local Open Scope nat_scope.

(* ---- seqinfo.ini ---- *)
Definition starts_with (p s : string) : Prop := exists r, s = (p ++ r)%string.
(** A line  key=value. *)
Definition assignment (kv : string * string) : string := (fst kv ++ "=" ++ snd kv)%string.
(** The value of a variable: digits are read as a number. *)
Definition reads_as (v : string) (i : info) : Prop :=
  (isdigit v = true -> i = InfoInt (int_of_digits v)) /\ (isdigit v = false -> i = InfoStr v).

Section S.
Context {N : Num}.

(** An object with an id and the corners (l, t), (r, b). *)
Definition boxed (id : nat) (l t r b : N) (p : prediction) : Prop :=
  pr_id p = Some id /\ exists row0 row1 rest, pr_estimate p = (l :: t :: row0) :: (r :: b :: row1) :: rest.
Record box := MkBox { b_id : nat; b_left : N; b_top : N; b_right : N; b_bottom : N }.
Definition shows_box (p : prediction) (x : box) : Prop := boxed (b_id x) (b_left x) (b_top x) (b_right x) (b_bottom x) p.

(** The lines of one frame. *)
Definition frame_text (fmt : N -> string) (frame : Z) (xs : list box) : string :=
  fold_right (fun x text => (str_of_Z frame ++ "," ++ str_of_Z (Z.of_nat (b_id x)) ++ "," ++ fmt (b_left x) ++ "," ++ fmt (b_top x) ++ ","
     ++ fmt (nsub (b_right x) (b_left x)) ++ "," ++ fmt (nsub (b_bottom x) (b_top x)) ++ ",-1,-1,-1,-1" ++ String "010" text)%string)
    EmptyString xs.
(** Frames numbered from [k]. *)
Fixpoint video_text (fmt : N -> string) (k : Z) (video : list (list box)) : string :=
  match video with
  | [] => EmptyString
  | xs :: video' => (frame_text fmt k xs ++ video_text fmt (k + 1) video')%string
  end.

(** update() once per frame. *)
Fixpoint pt_run (fmt : N -> string) (video : list (list prediction)) (s : ptext) : ptext * result unit :=
  match video with
  | [] => (s, Ret tt)
  | preds :: video' =>
    match pt_update fmt preds None s with (s', Ret _) => pt_run fmt video' s' | (s', Raise e) => (s', Raise e) end
  end.

(** list(parser), reading at most [fuel] elements. *)
Fixpoint drain (fuel : nat) (s : dparser (N := N)) : list (list filedet) :=
  match fuel with
  | O => []
  | S f => match dp_next s with (s', Some l) => l :: drain f s' | (_, None) => [] end
  end.

(** The detections of the rows with frame number [k]: two corners, the confidence twice. *)
Definition row_detection (f32 : N -> N) (r : list N) : filedet :=
  let c i := nth i r n0 in
  MkFileDet [[c 2; c 3]; [f32 (nadd (c 2) (c 4)); f32 (nadd (c 3) (c 5))]] [c 6; c 6].
Definition rows_of_frame (k : Z) (M : list (list N)) : list (list N) :=
  filter (fun r => neqb (nth 0 r n0) (nofQ (inject_Z k))) M.

(** next() called [j] times. *)
Fixpoint nexts (j : nat) (s : dparser (N := N)) : dparser :=
  match j with O => s | S j' => nexts j' (fst (dp_next s)) end.

(** [argsort v] puts the indices of [v] in some order that sorts [v]. *)
Definition sorts_column (argsort : list N -> list nat) : Prop :=
  forall v, Permutation (argsort v) (seq 0 (length v)).

(** Text and numbers: reading back what [fmt] wrote gives the number rounded to float32; separators do not
    occur in numbers. *)
Record text_ok (fmt : N -> string) (parse : string -> option N) (f32 : N -> N) : Prop := {
  tx_back : forall x, parse (fmt x) = Some (f32 x);
  tx_int : forall z, parse (str_of_Z z) = Some (nofQ (inject_Z z));
  tx_distinct : forall a b : Z, neqb (nofQ (n := N) (inject_Z a)) (nofQ (inject_Z b)) = Z.eqb a b;
  tx_sep : forall x, str_mem ","%char (fmt x) = false /\ str_mem "010"%char (fmt x) = false
}.

(** What is read back of a box: the corners, with the confidence -1. *)
Definition box_detection (f32 : N -> N) (x : box) : filedet :=
  let l := f32 (b_left x) in let t := f32 (b_top x) in
  MkFileDet [[l; t]; [f32 (nadd l (f32 (nsub (b_right x) (b_left x)))); f32 (nadd t (f32 (nsub (b_bottom x) (b_top x))))]]
    [nofQ (inject_Z (-1)); nofQ (inject_Z (-1))].
(** Exactly the box. *)
Definition exact_detection (x : box) : filedet :=
  MkFileDet [[b_left x; b_top x]; [b_right x; b_bottom x]] [nofQ (inject_Z (-1)); nofQ (inject_Z (-1))].

(* ---- accumulators ---- *)
(** The name of a sequence: what follows the last "/" of its path. *)
Definition name_of (path name : string) : Prop :=
  str_mem "/"%char name = false /\ (path = name \/ exists dir, path = (dir ++ "/" ++ name)%string).
(** One video: its path, its length and the predictions of each update() call. *)
Definition session := (string * (Z * list (list (prediction (N := N)))))%type.
Fixpoint updates (ps : list (list (prediction (N := N)))) (s : accs (N := N)) : accs (N := N) * result unit :=
  match ps with
  | [] => (s, Ret tt)
  | p :: ps' => match ac_update p s with (s', Ret _) => updates ps' s' | (s', Raise e) => (s', Raise e) end
  end.
Fixpoint sessions (vs : list session) (s : accs (N := N)) : accs (N := N) * result unit :=
  match vs with
  | [] => (s, Ret tt)
  | (path, (n, ps)) :: vs' =>
    match ac_create path [("seqLength=" ++ str_of_Z n)%string] s with
    | (s1, Ret _) => match updates ps s1 with (s2, Ret _) => sessions vs' s2 | (s2, Raise e) => (s2, Raise e) end
    | (s1, Raise e) => (s1, Raise e)
    end
  end.
(** As many updates as the sequence is long, one object per box; not exactly one box in the whole video. *)
Definition good_session (v : session) (x : string * list (list (box))) : Prop :=
  let '(path, (n, ps)) := v in fst x = path /\ n = Z.of_nat (length ps) /\ ps <> [] /\ Forall2 (Forall2 shows_box) ps (snd x) /\ length (concat (snd x)) <> 1.
(** The rows of a video: frames numbered from [k], coordinates in the Matlab convention. *)
Fixpoint video_rows (k : Z) (video : list (list box)) : list (mrow (N := N)) :=
  match video with
  | [] => []
  | xs :: video' =>
    map (fun x => MkRow k (Some (b_id x)) (nsub (b_left x) n1) (nsub (b_top x) n1) (nsub (b_right x) (b_left x)) (nsub (b_bottom x) (b_top x))) xs
    ++ video_rows (k + 1) video'
  end.
End S.
Arguments box : clear implicits.
Arguments session : clear implicits.

(** Vocabulary for reading and writing videos. *)
From Coq Require Import ZArith QArith Bool Arith Ascii String List.
From Verif Require Import Model.Num Model.Base Model.Strings Model.Metrics Model.Video Spec.MetricsSpec.
Import ListNotations.
Local Open Scope nat_scope.

Section S.
Context {Frame : Type} (W : world Frame).

(** The path with the home directory put in. *)
Definition full_path (p : string) : string := if str_mem "~" p then w_expanduser W p else p.
(** Arguments that name one usable source. *)
Inductive names_source (a : vargs) : source -> Prop :=
| names_camera z : va_input a = None -> va_camera a = Some (CamInt z) -> names_source a (FromCamera z)
| names_file p : va_camera a = None -> va_input a = Some p -> w_isfile W (full_path p) = true -> w_count W (full_path p) <> 0%Z ->
    names_source a (FromFile (full_path p)).
(** Arguments that do not choose between a camera and a file, or a camera that is not an int. *)
Definition bad_arguments (a : vargs) : Prop :=
  (va_input a = None /\ va_camera a = None) \/ (va_input a <> None /\ va_camera a <> None) \/ va_camera a = Some CamOther.

(** What a user does with a video: [next] on the i-th of any number of iterators made from it, and [write]; exceptions
    are caught. *)
Inductive action := Next (i : nat) | Write (f : Frame).
Fixpoint use (acts : list action) (gens : nat -> gen) (v : video Frame) : video Frame * list Frame :=
  match acts with
  | [] => (v, [])
  | Next i :: acts' =>
    let '(v', g', r) := gen_next W (gens i) v in
    let '(v'', fs) := use acts' (upd gens i g') v' in
    (v'', match r with Ret (Some f) => f :: fs | _ => fs end)
  | Write f :: acts' => use acts' gens (fst (write W f v))
  end.
Definition fresh_gens : nat -> gen := fun _ => GRunning.

Definition is_next (a : action) : bool := match a with Next _ => true | Write _ => false end.
Definition nexts_in (acts : list action) : nat := length (filter is_next acts).
Definition written (acts : list action) : list Frame := flat_map (fun a => match a with Write f => [f] | Next _ => [] end) acts.

(** The frames read in [k] reads, up to the first failure. *)
Fixpoint frames_until_failure (reads : nat -> option Frame) (k : nat) : list Frame :=
  match k with
  | O => []
  | S k' => match reads 0 with None => [] | Some f => f :: frames_until_failure (fun i => reads (S i)) k' end
  end.
(** A source with exactly the frames [fs]. *)
Definition has_frames (reads : nat -> option Frame) (fs : list Frame) : Prop :=
  (forall i, i < length fs -> reads i = nth_error fs i) /\ reads (length fs) = None.

(** for frame in video: for g in body(frame): video.write(g) *)
Definition for_loop (body : Frame -> list Frame) (fs : list Frame) : list action :=
  flat_map (fun f => Next 0 :: map Write (body f)) fs ++ [Next 0].

(** Opening the output file and writing to it. *)
Definition to_file (c : vcall Frame) : bool := match c with OpenWriter _ _ _ _ | WriteFrame _ => true | _ => false end.
(** Closing the output file or the source. *)
Definition is_release (c : vcall Frame) : bool := match c with ReleaseWriter | ReleaseCapture => true | _ => false end.
(** The frames that reach the file: those written before it is closed. *)
Fixpoint saved (calls : list (vcall Frame)) : list Frame :=
  match calls with
  | [] => []
  | WriteFrame f :: cs => f :: saved cs
  | ReleaseWriter :: _ => []
  | _ :: cs => saved cs
  end.
Definition opens_with (v : video Frame) (cc : string) (fs : list Frame) : list (vcall Frame) :=
  match fs with
  | [] => []
  | f :: _ => OpenWriter (output_path W v) cc (v_fps v) (snd (w_shape W f), fst (w_shape W f)) :: map WriteFrame fs
  end.

(** The codec used for a file name. *)
Definition ends_with (e s : string) : Prop := exists r, s = (r ++ e)%string.
Definition codec_for (v : video Frame) (name cc : string) : Prop :=
  v_fourcc v = Some cc \/
  v_fourcc v = None /\ exists e, slen e = 3 /\ ends_with e name /\
    (str_lower e = "avi" /\ cc = "XVID" \/ str_lower e = "mp4" /\ cc = "mp4v")%string.

(** A path split into directory, name up to the first dot, and rest. *)
Definition splits_as (p dir stem rest : string) : Prop :=
  p = (dir ++ stem ++ rest)%string /\ (dir = EmptyString \/ ends_with "/" dir) /\
  str_mem "/" stem = false /\ str_mem "." stem = false /\ str_mem "/" rest = false /\
  (rest = EmptyString \/ starts_with "." rest).
(** A folder followed by exactly one slash (none for the empty path). *)
Definition folder (d s : string) : Prop := d = EmptyString /\ s = EmptyString \/ ends_with "/" d /\ s = d \/ d <> EmptyString /\ ~ ends_with "/" d /\ s = (d ++ "/")%string.
End S.
Arguments action : clear implicits.

(* ---- progress bar text ---- *)
(** The beginning and the end of a text joined by dots. *)
Definition shortened (s : string) (n m : nat) (out : string) : Prop :=
  exists p q, starts_with p s /\ ends_with q s /\ slen p = n /\ slen q = m /\ out = (p ++ " ... " ++ q)%string.
(** What the bar calls a source: the name of the file without its folder, or the camera. *)
Inductive called : source -> string -> Prop :=
  | called_camera z : called (FromCamera z) ("Camera(" ++ str_of_Z z ++ ")")
  | called_file dir name : dir = EmptyString \/ ends_with "/" dir -> str_mem "/" name = false -> called (FromFile (dir ++ name)) name.

(* ---- frames in a folder ---- *)
(** seqinfo.ini says  key=value  in its first line starting with the key. *)
Definition declares (lines : list string) (k v : string) : Prop :=
  exists before after, lines = map assignment (before ++ (k, v) :: after) /\ forall kv, In kv before -> ~ starts_with k (fst kv).
(** The number of a frame in at least six digits. *)
Definition frame_digits (k : Z) (s : string) : Prop :=
  isdigit s = true /\ int_of_digits s = k /\ slen s = Nat.max 6 (slen (str_of_Z k)).
(** One number after the other. *)
Definition numbers (n : nat) : list Z := map (fun k => Z.of_nat (S k)) (seq 0 n).

Section F.
Context {Frame : Type}.
(** list(video), making at most [fuel] steps. *)
Fixpoint fv_list (fuel : nat) (s : fvideo Frame) : fvideo Frame * list string :=
  match fuel with
  | O => (s, [])
  | S k =>
    match fv_next s with
    | (s', Ret (Some p)) => let '(s'', ps) := fv_list k s' in (s'', p :: ps)
    | (s', _) => (s', [])
    end
  end.
(** for frame in video: video.update(body(frame)), making at most [fuel] steps. *)
Fixpoint fv_loop (body : string -> Frame) (fuel : nat) (s : fvideo Frame) : fvideo Frame * list string :=
  match fuel with
  | O => (s, [])
  | S k =>
    match fv_next s with
    | (s', Ret (Some p)) =>
      match fv_update (body p) s' with
      | (s1, Ret _) => let '(s'', ps) := fv_loop body k s1 in (s'', p :: ps)
      | (s1, Raise _) => (s1, [p])
      end
    | (s', _) => (s', [])
    end
  end.
End F.

(* ---- utils ---- *)
(** The distinct elements in the order in which they first occur. *)
Inductive first_occurrences : list string -> list string -> Prop :=
| fo_nil : first_occurrences [] []
| fo_new l m x : first_occurrences l m -> ~ In x l -> first_occurrences (l ++ [x]) (m ++ [x])
| fo_old l m x : first_occurrences l m -> In x l -> first_occurrences (l ++ [x]) m.

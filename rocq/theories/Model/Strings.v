(** Python strings.  SIMPLIFICATION: a string is a list of 8-bit characters. *)
From Coq Require Import ZArith Bool Arith Ascii String List.
From Verif Require Import Model.Base Model.Images.
Import ListNotations.
Local Open Scope nat_scope.

Definition chars := list_ascii_of_string.
Definition unchars := string_of_list_ascii.
Definition slen (s : string) : nat := String.length s.
(** [s[a:b]], [s[:b]], [s[a:]]. *)
Definition str_slice (a b : Z) (s : string) : string := unchars (slice a b (chars s)).
Definition str_to (b : Z) (s : string) : string := unchars (slice_to b (chars s)).
Definition str_from (a : Z) (s : string) : string := unchars (slice_from a (chars s)).

Definition newline : ascii := ascii_of_nat 10.

(** [s.split(c)] for a one-character separator. *)
Fixpoint split_on (c : ascii) (s : string) : list string :=
  match s with
  | EmptyString => [EmptyString]
  | String a s' =>
    if Ascii.eqb a c then EmptyString :: split_on c s'
    else match split_on c s' with [] => [String a EmptyString] | w :: ws => String a w :: ws end
  end.
Fixpoint str_mem (c : ascii) (s : string) : bool :=
  match s with EmptyString => false | String a s' => Ascii.eqb a c || str_mem c s' end.

Definition is_digit (a : ascii) : bool := (48 <=? nat_of_ascii a) && (nat_of_ascii a <=? 57).
(** [s.isdigit()] *)
Definition isdigit (s : string) : bool := negb (String.eqb s EmptyString) && forallb is_digit (chars s).
(** [int(s)] for a string of decimal digits. *)
Definition int_of_digits (s : string) : Z :=
  fold_left (fun acc a => (acc * 10 + (Z.of_nat (nat_of_ascii a) - 48))%Z) (chars s) 0%Z.
(** [s.lower()] *)
Definition lower_char (a : ascii) : ascii :=
  let n := nat_of_ascii a in if (65 <=? n) && (n <=? 90) then ascii_of_nat (n + 32) else a.
Definition str_lower (s : string) : string := unchars (map lower_char (chars s)).
(** [s.zfill(width)] for a string without sign. *)
Definition zfill (width : nat) (s : string) : string := unchars (repeat "0"%char (width - slen s) ++ chars s).

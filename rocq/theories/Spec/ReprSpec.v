(** Texts of objects. *)
From Coq Require Import ZArith QArith Qround Bool List String Ascii.
From Verif Require Import Model.Num Model.Base Model.Video.
Local Open Scope string_scope.

(** How the last distance of an object is shown. *)
Definition distance_text {D} (fmt2 : D -> string) (o : table_object D) : string := match to_distance o with None => "None" | Some d => fmt2 d end.

(** Two decimals. *)
Definition ex_fmt2 (d : dval QNum) : string :=
  match d with
  | DNaN => "nan" | DPInf => "inf" | DNInf => "-inf"
  | DFin q => let h := Qfloor ((if Qle_bool 0 q then q else - q) * 100 + (1 # 2)) in
              (if Qle_bool 0 q then "" else "-") ++ str_of_Z (h / 100) ++ "." ++ str_of_Z (h mod 100 / 10) ++ str_of_Z (h mod 10)
  end.
(** A text that occurs in another one. *)
Definition occurs (part text : string) : Prop := exists before after, text = before ++ part ++ after.

(** norfair/tracker.py:687-699 [TrackedObject.__repr__]. *)
From Coq Require Import ZArith QArith Bool Arith List String Ascii.
From Verif Require Import Model.Num Model.Base Model.Filter Model.Tracker Model.Video.
Import ListNotations.
Local Open Scope string_scope.

(** The escape character "\033" that starts the codes for bold ([1m) and normal ([0m) text. *)
Definition esc : ascii := "027"%char.

(** [fmt2] is the format ":.2f".  The same attributes as for the table ([table_object]): id, age, hit_counter, last_distance, initializing_id. *)
Definition object_repr {D} (fmt2 : D -> string) (o : table_object D) : string :=
  String esc "[1mObject_" ++ str_id (to_id o) ++ String esc "[0m(age: " ++ str_of_Z (to_age o) ++ ", hit_counter: " ++ str_of_Z (to_hit o)
  ++ ", last_distance: " ++ (match to_distance o with None => "None" | Some d => fmt2 d end) ++ ", init_id: " ++ str_of_Z (Z.of_nat (to_init o)) ++ ")".

(** The attributes of an object of the tracker that are printed. *)
Definition printed {N : Num} {FO : filter_ops N} (o : tobj FO) : table_object (dval N) :=
  MkTO (o_id o) (o_age o) (o_hit o) (o_last_distance o) (oc_iid (o_conf o)).

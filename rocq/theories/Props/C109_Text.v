(** C109: the text of an object. *)
From Coq Require Import ZArith QArith Bool Arith List String Ascii.
From Verif Require Import Model.Num Model.Base Model.Strings Model.Filter Model.Video Model.Tracker Model.Repr Spec.IdentitySpec Spec.ReprSpec Spec.ExampleTracker Proofs.ReprProofs.
Import ListNotations.

(** C109: the text of an object shows its id, age, hit_counter, last_distance and initializing_id: two texts are equal exactly when these are (the
    distances up to their format, in which there is no comma). *)
Theorem C109_text_shows (D : Type) (fmt2 : D -> string) o o' : (forall d, str_mem "," (fmt2 d) = false) ->
  object_repr fmt2 o = object_repr fmt2 o' <->
  to_id o = to_id o' /\ to_age o = to_age o' /\ to_hit o = to_hit o' /\ distance_text fmt2 o = distance_text fmt2 o' /\ to_init o = to_init o'.
Proof. exact (fun H => repr_all fmt2 H o o'). Qed.
Print Assumptions C109_text_shows.

(** Each attribute is shown under its own name ("027" starts the code for normal text). *)
Theorem C109_fields (D : Type) (fmt2 : D -> string) o :
  occurs ("Object_" ++ str_id (to_id o) ++ String "027" "[0m(") (object_repr fmt2 o) /\
  occurs ("(age: " ++ str_of_Z (to_age o) ++ ",") (object_repr fmt2 o) /\
  occurs (" hit_counter: " ++ str_of_Z (to_hit o) ++ ",") (object_repr fmt2 o) /\
  occurs (" last_distance: " ++ distance_text fmt2 o ++ ",") (object_repr fmt2 o) /\
  occurs (" init_id: " ++ str_of_Z (Z.of_nat (to_init o)) ++ ")") (object_repr fmt2 o).
Proof. exact (repr_fields fmt2 o). Qed.
Print Assumptions C109_fields.

(** Different objects of one tracker never have the same text, also at different times. *)
Theorem C109_texts_differ (N : Num) (FO : filter_ops N) conf (w : world FO) k ops fmt2 i j :
  reachable conf w -> (forall d, str_mem "," (fmt2 d) = false) -> created w k i -> created (run conf w ops) k j ->
  object_repr fmt2 (printed (obj w k i)) = object_repr fmt2 (printed (obj (run conf w ops) k j)) -> i = j.
Proof. exact (texts_differ conf w k ops fmt2 i j). Qed.
Print Assumptions C109_texts_differ.

(** Objects of two trackers can have the same text (the global id is not shown). *)
Theorem C109_two_trackers_refuted : exists (w : world exF), reachable (fun _ => ex_conf) w /\ created w 0 1 /\ created w 1 1 /\
  o_gid (obj w 0 1) = Some 1%nat /\ o_gid (obj w 1 1) = Some 2%nat /\
  object_repr ex_fmt2 (printed (obj w 0 1)) = object_repr ex_fmt2 (printed (obj w 1 1)).
Proof. exact two_trackers_refuted. Qed.
Print Assumptions C109_two_trackers_refuted.

(* ---- objects of the two trackers of the example ---- *)
Example C109_example : object_repr ex_fmt2 (printed (obj ex_world 0 1)) =
  String esc ("[1mObject_1" ++ String esc "[0m(age: 2, hit_counter: 3, last_distance: 1.00, init_id: 1)").
Proof. vm_compute. reflexivity. Qed.
Example C109_example_new : object_repr ex_fmt2 (MkTO None 0%Z 1%Z None 4) =
  String esc ("[1mObject_None" ++ String esc "[0m(age: 0, hit_counter: 1, last_distance: None, init_id: 4)").
Proof. vm_compute. reflexivity. Qed.
Example C109_example_comma : forall d, str_mem "," (ex_fmt2 d) = false.
Proof. exact ex_no_comma. Qed.

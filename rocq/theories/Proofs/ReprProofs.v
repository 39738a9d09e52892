(** Texts of objects. *)
From Coq Require Import ZArith QArith Bool Arith List String Ascii Lia.
From Verif Require Import Model.Num Model.Base Model.Strings Model.Filter Model.Tracker Model.Video Model.Repr Spec.IdentitySpec Spec.ReprSpec Spec.ExampleTracker
  Proofs.TrackerFrame Proofs.Identity Proofs.IdentityProps Proofs.DistanceProofs Proofs.MetricsProofs Proofs.VideoPaths.
Import ListNotations.
Local Open Scope string_scope.

Lemma until c a b x y : str_mem c a = false -> str_mem c b = false -> (a ++ String c x = b ++ String c y) -> a = b /\ x = y.
Proof.
  revert b. induction a as [|d a IH]; intros [|e b] A B E; cbn in *.
  - injection E as ->. auto.
  - injection E as -> _. rewrite Ascii.eqb_refl in B. discriminate.
  - injection E as <- _. rewrite Ascii.eqb_refl in A. discriminate.
  - injection E as -> E. apply orb_false_iff in A as [_ A]. apply orb_false_iff in B as [_ B]. destruct (IH b A B E) as [-> ->]. auto.
Qed.
Lemma str_id_mem c i : is_digit c = false -> c <> "-"%char -> str_mem c "None" = false -> str_mem c (str_id i) = false.
Proof. intros A B C. destruct i; [apply str_of_Z_mem; assumption|exact C]. Qed.
Lemma str_id_inj i j : str_id i = str_id j -> i = j.
Proof.
  assert (X : forall n, str_of_Z (Z.of_nat n) <> "None").
  { intros n H. destruct (str_of_Z_nonneg (Z.of_nat n) (Zle_0_nat n)) as [D _]. rewrite H in D. discriminate. }
  destruct i as [n|], j as [m|]; cbn; intros H; auto; [apply str_of_Z_inj in H; f_equal; lia|elim (X n H)|elim (X m (eq_sym H))].
Qed.

Section T.
Context {D : Type} (fmt2 : D -> string).
Local Notation distance_text := (distance_text fmt2).

Lemma repr_numbers o o' : object_repr fmt2 o = object_repr fmt2 o' -> to_id o = to_id o' /\ to_age o = to_age o' /\ to_hit o = to_hit o' /\
  (distance_text o ++ ", init_id: " ++ str_of_Z (Z.of_nat (to_init o)) ++ ")" = distance_text o' ++ ", init_id: " ++ str_of_Z (Z.of_nat (to_init o')) ++ ")").
Proof.
  unfold object_repr. intros E. apply sapp_cancel in E.
  apply until in E as [E1 E]; try (apply str_id_mem; [reflexivity|discriminate|reflexivity]). apply (sapp_cancel "[0m(age: ") in E.
  apply until in E as [E2 E]; try (apply str_of_Z_mem; [reflexivity|discriminate]). apply (sapp_cancel " hit_counter: ") in E.
  apply until in E as [E3 E]; try (apply str_of_Z_mem; [reflexivity|discriminate]). apply (sapp_cancel " last_distance: ") in E.
  split; [apply str_id_inj, E1|]. split; [apply str_of_Z_inj, E2|]. split; [apply str_of_Z_inj, E3|]. exact E.
Qed.
Hypothesis no_comma : forall d, str_mem "," (fmt2 d) = false.
Lemma repr_all o o' : object_repr fmt2 o = object_repr fmt2 o' <->
  to_id o = to_id o' /\ to_age o = to_age o' /\ to_hit o = to_hit o' /\ distance_text o = distance_text o' /\ to_init o = to_init o'.
Proof.
  split; [|unfold object_repr; fold (distance_text o) (distance_text o'); intros (-> & -> & -> & -> & ->); reflexivity].
  intros E. destruct (repr_numbers _ _ E) as (A & B & C & F). split; [exact A|]. split; [exact B|]. split; [exact C|].
  apply until in F as [F1 F]; try (unfold distance_text; destruct (to_distance _); [apply no_comma|reflexivity]).
  split; [exact F1|]. apply (sapp_cancel " init_id: ") in F. apply sapp_cancel_r in F. apply str_of_Z_inj in F. lia.
Qed.
End T.

Lemma texts_differ {N : Num} {FO : filter_ops N} conf (w : Tracker.world FO) k ops fmt2 i j :
  reachable conf w -> (forall d, str_mem "," (fmt2 d) = false) -> created w k i -> created (run conf w ops) k j ->
  object_repr fmt2 (printed (obj w k i)) = object_repr fmt2 (printed (obj (run conf w ops) k j)) -> i = j.
Proof.
  intros R M Ci Cj E. apply (repr_all fmt2 M) in E as (_ & _ & _ & _ & E). cbn in E.
  destruct (ids_none_iff_initializing conf w k i R Ci) as (_ & _ & <-).
  assert (R' : reachable conf (run conf w ops)) by (apply reachable_run; exact R).
  destruct (ids_none_iff_initializing conf (run conf w ops) k j R' Cj) as (_ & _ & <-). exact E.
Qed.

(** Objects of two trackers. *)
Definition two_ops : list (op QNum) :=
  [OpDet 1 (ExampleTracker.ex_det 0); OpUpdate 0 (Some [1%nat]) 1%Z None; OpDet 2 (ExampleTracker.ex_det 5); OpUpdate 1 (Some [2%nat]) 1%Z None;
   OpDet 3 (ExampleTracker.ex_det 1); OpUpdate 0 (Some [3%nat]) 1%Z None; OpDet 4 (ExampleTracker.ex_det 6); OpUpdate 1 (Some [4%nat]) 1%Z None].
Lemma two_trackers_refuted : exists (w : Tracker.world ExampleTracker.exF),
  reachable (fun _ => ExampleTracker.ex_conf) w /\ created w 0 1 /\ created w 1 1 /\
  o_gid (obj w 0 1) = Some 1%nat /\ o_gid (obj w 1 1) = Some 2%nat /\
  object_repr ex_fmt2 (printed (obj w 0 1)) = object_repr ex_fmt2 (printed (obj w 1 1)).
Proof.
  exists (run (fun _ => ExampleTracker.ex_conf) (init_world (fun _ => ExampleTracker.ex_det 0) ExampleTracker.ex_dummy) two_ops).
  split; [eexists _, _, _; reflexivity|]. unfold created. 
  assert (C0 : p_icount (w_trackers (run (fun _ => ExampleTracker.ex_conf) (init_world (fun _ => ExampleTracker.ex_det 0) ExampleTracker.ex_dummy) two_ops) 0) = 1%nat) by (vm_compute; reflexivity).
  assert (C1 : p_icount (w_trackers (run (fun _ => ExampleTracker.ex_conf) (init_world (fun _ => ExampleTracker.ex_det 0) ExampleTracker.ex_dummy) two_ops) 1) = 1%nat) by (vm_compute; reflexivity).
  rewrite C0, C1. split; [lia|]. split; [lia|]. split; [vm_compute; reflexivity|]. split; [vm_compute; reflexivity|]. vm_compute. reflexivity.
Qed.
Lemma ex_no_comma d : str_mem "," (ex_fmt2 d) = false.
Proof.
  destruct d as [| |q|]; try reflexivity. unfold ex_fmt2. cbv zeta. rewrite !mem_app. rewrite !str_of_Z_mem by (reflexivity || discriminate).
  destruct (Qle_bool 0 q); reflexivity.
Qed.

Lemma repr_fields {D} (fmt2 : D -> string) o :
  occurs ("Object_" ++ str_id (to_id o) ++ String "027" "[0m(") (object_repr fmt2 o) /\
  occurs ("(age: " ++ str_of_Z (to_age o) ++ ",") (object_repr fmt2 o) /\
  occurs (" hit_counter: " ++ str_of_Z (to_hit o) ++ ",") (object_repr fmt2 o) /\
  occurs (" last_distance: " ++ distance_text fmt2 o ++ ",") (object_repr fmt2 o) /\
  occurs (" init_id: " ++ str_of_Z (Z.of_nat (to_init o)) ++ ")") (object_repr fmt2 o).
Proof.
  unfold object_repr. fold (distance_text fmt2 o). generalize (str_id (to_id o)) (str_of_Z (to_age o)) (str_of_Z (to_hit o)) (distance_text fmt2 o) (str_of_Z (Z.of_nat (to_init o))).
  intros i a h d n. repeat split.
  - exists (String esc "[1m"), ("age: " ++ a ++ ", hit_counter: " ++ h ++ ", last_distance: " ++ d ++ ", init_id: " ++ n ++ ")"). cbn. rewrite !sapp_assoc. reflexivity.
  - exists (String esc "[1mObject_" ++ i ++ String esc "[0m"), (" hit_counter: " ++ h ++ ", last_distance: " ++ d ++ ", init_id: " ++ n ++ ")"). cbn. repeat (rewrite !sapp_assoc; cbn). reflexivity.
  - exists (String esc "[1mObject_" ++ i ++ String esc "[0m(age: " ++ a ++ ","), (" last_distance: " ++ d ++ ", init_id: " ++ n ++ ")"). cbn. repeat (rewrite !sapp_assoc; cbn). reflexivity.
  - exists (String esc "[1mObject_" ++ i ++ String esc "[0m(age: " ++ a ++ ", hit_counter: " ++ h ++ ","), (" init_id: " ++ n ++ ")"). cbn. repeat (rewrite !sapp_assoc; cbn). reflexivity.
  - exists (String esc "[1mObject_" ++ i ++ String esc "[0m(age: " ++ a ++ ", hit_counter: " ++ h ++ ", last_distance: " ++ d ++ ","), "". cbn. repeat (rewrite !sapp_assoc; cbn). reflexivity.
Qed.

From Coq Require Import ZArith QArith Arith Bool String List Lia.
From Verif Require Import Model.Num Model.Base Model.Metrics Model.Report Spec.ReportSpec Proofs.ReportProofs.
Import ListNotations.
Local Open Scope nat_scope.

Section R.
Context {N : Num} {G C : Type}.
Variable ground_truth : string -> result G.
Variable compare : G -> list (mrow (N := N)) -> C.
Variable render : list C -> list string -> string.

Lemma loads (m : pmatrix (N := N)) : (exists rows, load_motchallenge m (-1)%Q = Ret rows) <-> ~ exists r, m = PFlat r.
Proof.
  destruct m as [|r|rows]; cbn; split.
  - intros _ [r [=]].
  - eauto.
  - intros [rows [=]].
  - intros H. exfalso; eauto.
  - intros _ [r [=]].
  - eauto.
Qed.
Lemma eval_succeeds (s : accs (N := N)) :
  (exists r, eval_motChallenge ground_truth compare s = Ret r) <->
  Forall (fun p => exists g, ground_truth p = Ret g) (ac_paths s) /\
  length (ac_paths s) <= length (ac_matrixes s) /\
  forall n m, n < length (ac_paths s) -> nth_error (ac_matrixes s) n = Some m -> ~ exists r, m = PFlat r.
Proof.
  rewrite eval_ok. split; intros (A & B & D); repeat split; auto; intros n m L M; apply loads; eauto.
Qed.

Definition saves paths b := fold_left (fun x p => fst (save_metrics (N := N) p x)) paths b.
Lemma saves_spec text paths : forall b, b_summary b = Some text ->
  b_accs (saves paths b) = b_accs b /\ b_summary (saves paths b) = Some text /\ b_out (saves paths b) = b_out b /\
  forall p, dict_get p (b_files (saves paths b)) = if existsb (String.eqb p) paths then Some text else dict_get p (b_files b).
Proof.
  induction paths as [|q paths IH]; intros b H; cbn; [auto|].
  assert (b_summary (fst (save_metrics q b)) = Some text) as S by (unfold save_metrics; rewrite H; reflexivity).
  destruct (IH _ S) as (A & B & D & E). fold (saves paths (fst (save_metrics q b))).
  rewrite A, B, D. unfold save_metrics; rewrite H; cbn. repeat split; auto.
  intros p. unfold save_metrics in E; rewrite H in E; cbn in E. rewrite E, dict_get_set, (String.eqb_sym q p).
  destruct (existsb _ _); [rewrite orb_true_r; reflexivity|]. rewrite orb_false_r. reflexivity.
Qed.
Lemma saved b b' paths :
  compute_metrics ground_truth compare render true b = (b', Ret tt) ->
  exists cs names, eval_motChallenge ground_truth compare (b_accs b) = Ret (cs, names) /\
  let text := render cs names in
  let b2 := fold_left (fun x p => fst (save_metrics p x)) paths b' in
  (forall p, dict_get p (b_files b2) = if existsb (String.eqb p) paths then Some text else dict_get p (b_files b)) /\
  print_metrics b2 = (MkBench (b_accs b2) (b_summary b2) (b_files b2) (b_out b ++ [text]), Ret tt) /\
  compute_metrics ground_truth compare render true b2 = (b2, Ret tt).
Proof.
  unfold compute_metrics at 1. destruct (eval_motChallenge _ _ (b_accs b)) as [[cs names]|] eqn:E; [|discriminate].
  intros [= <-]. exists cs, names. split; [reflexivity|]. cbn zeta. set (b1 := MkBench _ _ _ _).
  destruct (saves_spec (render cs names) paths b1 eq_refl) as (A & B & D & F). fold (saves paths b1).
  split; [exact F|]. split.
  - unfold print_metrics. rewrite B, D. reflexivity.
  - unfold compute_metrics. rewrite A. cbn [b1 b_accs]. rewrite E. f_equal.
    destruct (saves paths b1); cbn in *. subst. reflexivity.
Qed.

(** [compare_dataframes] itself. *)
Lemma dict_get_absent {A} k (d : list (string * A)) : dict_get k d = None -> existsb (String.eqb k) (map fst d) = false.
Proof. induction d as [|[k' v] d IH]; cbn; intros H; [reflexivity|]. rewrite String.eqb_sym. destruct (String.eqb k' k); [discriminate|]. cbn. auto. Qed.
Lemma dict_get_present {A} k (d : list (string * A)) v : dict_get k d = Some v -> existsb (String.eqb k) (map fst d) = true /\ In (k, v) d.
Proof.
  induction d as [|[k' w] d IH]; cbn; intros H; [discriminate|]. rewrite String.eqb_sym. destruct (String.eqb k' k) eqn:E.
  - apply String.eqb_eq in E. injection H as ->. subst. auto. - destruct (IH H). auto.
Qed.
Lemma compare_all gts ts cs names : compare_dataframes compare gts ts = (cs, names) ->
  let known := fun k : string => existsb (String.eqb k) (map fst gts) in
  names = filter known (map fst ts) /\ length cs = length names /\
  forall n k rows, nth_error (filter (fun x => known (fst x)) ts) n = Some (k, rows) -> exists g, In (k, g) gts /\ nth_error cs n = Some (compare g rows).
Proof.
  cbv zeta. revert cs names. induction ts as [|[k rows] ts IH]; cbn; intros cs names H.
  - injection H as <- <-. split; [reflexivity|]. split; [reflexivity|]. intros [|n]; discriminate.
  - destruct (compare_dataframes compare gts ts) as [cs0 ns0]. destruct (IH cs0 ns0 eq_refl) as (A & B & C0). destruct (dict_get k gts) as [g|] eqn:E.
    + destruct (dict_get_present _ _ _ E) as [X Y]. injection H as <- <-. rewrite X, A. split; [reflexivity|]. split; [cbn; congruence|].
      intros [|n] k' rows'; cbn; intros Hn; [injection Hn as <- <-; eauto|eauto].
    + injection H as <- <-. rewrite (dict_get_absent _ _ E). auto.
Qed.
End R.

Lemma save_empties : exists (b : bench (N := QNum)) path old,
  dict_get path (b_files b) = Some old /\ old <> EmptyString /\
  snd (save_metrics path b) = Raise EAttributeError /\ dict_get path (b_files (fst (save_metrics path b))) = Some EmptyString.
Proof.
  exists (MkBench ac_new None [("metrics.txt", "old results")]%string []), "metrics.txt"%string, "old results"%string.
  repeat split. discriminate.
Qed.

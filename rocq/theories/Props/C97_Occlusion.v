(** C97: steadily moving things that appear, leave and are not detected in every call are followed, each by one object. *)
From Coq Require Import ZArith QArith Reals Lra List Arith Lia Bool Permutation.
From Verif Require Import Model.Num Model.Base Model.Filter Model.KalmanMatrix Model.Distances Model.Tracker Spec.KalmanSpec Spec.ExampleVideo Spec.ProgressSpec
  Spec.FollowSpec Spec.GapSpec Spec.SceneSpec Spec.OcclusionSpec Proofs.KalmanTheorems Proofs.OcclusionFilters.
From Verif Require Import Spec.CallSpec Spec.PointSpec.
Import ListNotations.
Local Open Scope R_scope.

Theorem C97_nofilter G cap (K : R) : INR (S (Z.to_nat cap)) <= K -> follows_gaps (nofilter_ops RNum) G cap K.
Proof. exact (nofilter_gaps G cap K). Qed.
Print Assumptions C97_nofilter.
Theorem C97_filterpy inv (p : fp_params) G cap D (K : R) : inverts_diagonal inv -> 0 < fp_R p -> 0 <= fp_Q p -> 0 < fp_P p ->
  velocity_bound 1 (fp_Q p) (fp_R p) 0 (fp_P p) G D -> 0 <= K ->
  gap_constant (fp_R p) 1 0 (fp_P p) D (Z.to_nat cap) <= K * K -> follows_gaps (fp_ops inv p) G cap K.
Proof. exact (filterpy_gaps inv p G cap D K). Qed.
Print Assumptions C97_filterpy.
(** The optimized filter: things that appear and leave, and are detected in every call in between. *)
Theorem C97_optimized (p : okf_params RNum) cap D (K : R) : 0 < kp_R p -> 0 <= kp_Q p -> start_pd p ->
  velocity_bound (kp_Q p) (kp_Q p) (kp_R p) (kp_pos_vel_covariance p) (kp_vel_variance p) 0 D -> 0 <= K ->
  gap_constant (kp_R p) (kp_pos_variance p) (kp_pos_vel_covariance p) (kp_vel_variance p) D (Z.to_nat cap) <= K * K -> follows_gaps (okf_ops p) 0 cap K.
Proof. exact (optimized_gaps p cap D K). Qed.
Print Assumptions C97_optimized.
(** With the default parameters, for any [hit_counter_max]; filterpy with all gaps that it allows. *)
Theorem C97_defaults cap : (0 <= cap)%Z ->
  follows_gaps (okf_ops (okf_default_params (N := RNum))) 0 cap (2 + 21 / 20 * (IZR cap + 1)) /\
  forall inv, inverts_diagonal inv -> follows_gaps (fp_ops inv fp_default_params) (Z.to_nat cap) cap (2 / 3 + (IZR cap + 1) * (1 + (IZR cap + 1) / 200)).
Proof. exact (default_gaps cap). Qed.
Print Assumptions C97_defaults.

(* ---- concrete cases ---- *)
(** Three things of one point, far apart, moving side by side: the first is detected in every call, the second in every
    second call from the third on, the last one in the first six calls; any number of calls. *)
Definition ex97_x (a : nat) : points RNum := [[0; 1000 * INR a]].
Definition ex97_v (_ : nat) : points RNum := [[1; -1 / 2]].
Definition ex97_ref (k a : nat) : nat := (3 * k + a)%nat.
Definition ex97_vis (k a : nat) : bool := match a with O => true | 1%nat => (2 <=? k)%nat && Nat.even k | _ => (k <=? 5)%nat end.
(** The same, with the second thing detected in every call from the third on. *)
Definition ex97_vis' (k a : nat) : bool := match a with O => true | 1%nat => (2 <=? k)%nat | _ => (k <=? 5)%nat end.
Definition ex97_det (k a : nat) : detection RNum := new_detection (position (ex97_x a) (ex97_v a) k) None [] LNone.
Definition ex97_call (vis : nat -> nat -> bool) (k : nat) : input RNum :=
  MkInput (map (fun a => (ex97_ref k a, ex97_det k a)) (filter (vis k) (seq 0 3))) (rev (map (ex97_ref k) (filter (vis k) (seq 0 3)))) 1 None.
Definition ex97_conf (FO : filter_ops RNum) : tconf FO :=
  MkTconf (ScalarDistance (on_points mean_manhattan_arrays)) (@DFin RNum 30) 15 0 4 (0 : RNum) 4 None (@DFin RNum 0) None (fun d => d).
Example ex97_tracker FO : scene_tracker mean_manhattan_arrays 30 (ex97_conf FO).
Proof. constructor; auto. cbn. lia. Qed.
Example ex97_scene FO vis calls : scene_with_gaps 1 2 3 ex97_x ex97_v (fun _ => LNone) ex97_ref vis (tc_det_thr (ex97_conf FO)) (map (ex97_call vis) (seq 0 calls)).
Proof.
  assert (H : forall k y, nth_error (map (ex97_call vis) (seq 0 calls)) k = Some y -> y = ex97_call vis k).
  { intros k y E. rewrite nth_error_map in E. destruct (nth_error (seq 0 calls) k) as [j|] eqn:Ej; [|discriminate]. cbn in E.
    assert (L : (k < length (seq 0 calls))%nat) by (apply nth_error_Some; congruence). apply (nth_error_nth _ _ 0%nat) in Ej. rewrite seq_length in L. rewrite seq_nth in Ej by exact L. cbn in Ej. congruence. }
  constructor.
  - intros a _. repeat split; repeat constructor.
  - unfold ex97_ref. intros k k' a a' Ha Ha' E. lia.
  - intros k y E. apply H in E. subst y. cbn [ex97_call in_period in_ct in_dets in_new]. split; [reflexivity|]. split; [reflexivity|].
    split; [symmetry; apply Permutation_rev|]. rewrite map_map. reflexivity.
  - intros k y a d E Ha Hd. apply H in E. subst y. cbn [ex97_call in_new] in Hd. apply in_map_iff in Hd as (b & Hd & Hb). apply filter_In in Hb as [Hb _]. apply in_seq in Hb. injection Hd as Hr <-.
    assert (b = a) by (unfold ex97_ref in Hr; lia). subst b. cbn. repeat split; try discriminate; auto.
Qed.
Example ex97_apart vis K calls : 0 <= K <= 19 -> apart_with_gaps 3 ex97_x ex97_v (fun _ => LNone) vis mean_manhattan_arrays 15 K 30 calls.
Proof.
  intros HK. assert (Sp : forall a, mean_manhattan_arrays (position (ex97_x a) (ex97_v a) 1) (position (ex97_x a) (ex97_v a) 0) = Ret (@DFin RNum (3 / 2))).
  { intros a. cbn. unfold norm1. cbn. do 2 f_equal. unfold Rabs. repeat destruct (Rcase_abs _); lra. }
  constructor.
  - intros a _. exists (3 / 2). split; [apply Sp|lra].
  - intros a b k h Ha Hb Hab _ _ _ _ _. exists (Rabs (1000 * INR a - 1000 * INR b)), (3 / 2). split; [|split; [apply Sp|]].
    + unfold position. set (t := INR (S k)). set (p := INR a). set (q := INR b). cbn. unfold norm1. cbn. do 2 f_equal. fold p q. clearbody t p q. unfold Rabs. repeat destruct (Rcase_abs _); lra.
    + assert (E : 1 <= Rabs (INR a - INR b)).
      { destruct (Nat.lt_total a b) as [L|[L|L]]; [|contradiction|]; apply Nat.le_succ_l, le_INR in L; rewrite S_INR in L; unfold Rabs; destruct (Rcase_abs _); lra. }
      replace (1000 * INR a - 1000 * INR b) with (1000 * (INR a - INR b)) by ring. rewrite Rabs_mult, (Rabs_pos_eq 1000) by lra. lra.
Qed.
(** The credit. *)
Example ex97_all_visible vis a k h : (forall j, (j <= k)%nat -> vis j a = true) -> credit vis 15 a k = Some h -> (1 <= h)%Z.
Proof.
  revert h. induction k as [|k IH]; intros h V E; cbn [credit] in E; rewrite (V _ (le_n _)) in E; [injection E as <-; lia|].
  destruct (credit vis 15 a k) as [h'|] eqn:E'; injection E as <-; [|lia]. specialize (IH h' ltac:(intros; apply V; lia) eq_refl). lia.
Qed.
Example ex97_credit m : credit ex97_vis 15 1 (2 + 2 * m) = Some 1%Z /\ credit ex97_vis 15 1 (3 + 2 * m) = Some 0%Z.
Proof.
  assert (Ev : forall m, Nat.even (2 + 2 * m) = true) by (intros n; rewrite Nat.even_add, Nat.even_mul; reflexivity).
  assert (Od : forall m, Nat.even (3 + 2 * m) = false) by (intros n; rewrite Nat.even_add, Nat.even_mul; reflexivity).
  induction m as [|m [_ I]]; [split; reflexivity|].
  assert (X : credit ex97_vis 15 1 (2 + 2 * S m) = Some 1%Z).
  { replace (2 + 2 * S m)%nat with (S (3 + 2 * m)) by lia. cbn [credit]. rewrite I. unfold ex97_vis. replace (S (3 + 2 * m)) with (2 + 2 * S m)%nat by lia. rewrite Ev. reflexivity. }
  split; [exact X|]. replace (3 + 2 * S m)%nat with (S (2 + 2 * S m)) by lia. cbn [credit]. rewrite X. unfold ex97_vis. replace (S (2 + 2 * S m)) with (3 + 2 * S m)%nat by lia. rewrite Od. reflexivity.
Qed.
Example ex97_no_return calls : no_return 3 ex97_vis 15 1 calls.
Proof.
  constructor.
  - intros a k h Ha _ E V. destruct a as [|[|[|a]]]; [| | |lia].
    + apply (ex97_all_visible ex97_vis 0 k h) in E; [lia|reflexivity].
    + destruct k as [|[|k]]; try discriminate. destruct (Nat.Even_or_Odd k) as [[m ->]|[m ->]].
      * replace (S (S (2 * m))) with (2 + 2 * m)%nat in E by lia. rewrite (proj1 (ex97_credit m)) in E. injection E as <-. lia.
      * replace (S (S (2 * m + 1))) with (3 + 2 * m)%nat in E by lia. rewrite (proj2 (ex97_credit m)) in E. injection E as <-. lia.
    + apply (ex97_all_visible ex97_vis 2 k h) in E; [lia|]. unfold ex97_vis in V |- *. apply Nat.leb_le in V. intros j Hj. apply Nat.leb_le. lia.
  - intros _ a k l Ha _ V1 V2 N. destruct (le_lt_dec l 1) as [|L]; [assumption|exfalso]. destruct a as [|[|[|a]]]; [| | |lia].
    + specialize (N (S k) ltac:(lia)). discriminate.
    + specialize (N (2 + k)%nat ltac:(lia)). unfold ex97_vis in *. apply andb_true_iff in V1 as [V1 E1]. rewrite Nat.even_add, E1 in N. destruct k as [|k]; [discriminate|]. cbn in N. discriminate.
    + specialize (N (S k) ltac:(lia)). unfold ex97_vis in *. apply Nat.leb_le in V2. apply Nat.leb_gt in N. lia.
Qed.
Example ex97_no_return' calls : no_return 3 ex97_vis' 15 0 calls.
Proof.
  constructor.
  - intros a k h Ha _ E V. destruct a as [|[|[|a]]]; [| | |lia].
    + apply (ex97_all_visible ex97_vis' 0 k h) in E; [lia|reflexivity].
    + assert (X : forall k h, credit ex97_vis' 15 1 k = Some h -> (1 <= h)%Z).
      { clear. induction k as [|[|k] IH]; intros h E; [discriminate|discriminate|]. cbn [credit] in E, IH. change (ex97_vis' (S (S k)) 1) with true in E. cbn iota in E.
        destruct (match credit ex97_vis' 15 1 k with Some _ => _ | None => _ end) as [h'|] eqn:E'; injection E as <-; [|lia]. specialize (IH h' eq_refl). lia. }
      apply X in E. lia.
    + apply (ex97_all_visible ex97_vis' 2 k h) in E; [lia|]. unfold ex97_vis' in V |- *. apply Nat.leb_le in V. intros j Hj. apply Nat.leb_le. lia.
  - intros _ a k l Ha _ V1 V2 N. destruct l as [|l]; [lia|exfalso]. specialize (N (S k) ltac:(lia)). destruct a as [|[|[|a]]]; [| | |lia]; unfold ex97_vis' in *.
    + discriminate.
    + apply Nat.leb_le in V1. apply Nat.leb_gt in N. lia.
    + apply Nat.leb_le in V2. apply Nat.leb_gt in N. lia.
Qed.
(** With the default filters all is as the theorems say, for any number of calls. *)
Example ex97_filterpy inv calls heap g dummy : inverts_diagonal inv -> exists fs object_of,
  play (ex97_conf (fp_ops inv fp_default_params)) (new_tracker heap g dummy) (map (ex97_call ex97_vis) (seq 0 calls)) = Some fs /\
  length fs = length (map (ex97_call ex97_vis) (seq 0 calls)) /\
  followed_with_gaps 1 2 3 ex97_x ex97_v ex97_ref ex97_vis 15 0 (2 / 3 + (15 + 1) * (1 + (15 + 1) / 200)) object_of fs.
Proof.
  intros H. destruct (C97_defaults 15 ltac:(lia)) as [_ F].
  refine (F inv H 1%nat 2%nat 3%nat ex97_x ex97_v (fun _ => LNone) ex97_ref ex97_vis mean_manhattan_arrays 30
    (ex97_conf (fp_ops inv fp_default_params)) (map (ex97_call ex97_vis) (seq 0 calls)) heap g dummy (le_n _) ltac:(lia) ltac:(cbn; auto) (ex97_tracker _) eq_refl eq_refl (ex97_scene _ _ calls) _
    (ex97_apart _ (2 / 3 + (15 + 1) * (1 + (15 + 1) / 200)) _ ltac:(lra))).
  destruct (ex97_no_return (length (map (ex97_call ex97_vis) (seq 0 calls)))) as [A B]. constructor; [exact A|]. intros X. cbn in X. lia.
Qed.
Example ex97_optimized calls heap g dummy : exists fs object_of,
  play (ex97_conf (okf_ops okf_default_params)) (new_tracker heap g dummy) (map (ex97_call ex97_vis') (seq 0 calls)) = Some fs /\
  length fs = length (map (ex97_call ex97_vis') (seq 0 calls)) /\
  followed_with_gaps 1 2 3 ex97_x ex97_v ex97_ref ex97_vis' 15 0 (2 + 21 / 20 * (15 + 1)) object_of fs.
Proof.
  destruct (C97_defaults 15 ltac:(lia)) as [F _].
  exact (F 1%nat 2%nat 3%nat ex97_x ex97_v (fun _ => LNone) ex97_ref ex97_vis' mean_manhattan_arrays 30
    (ex97_conf (okf_ops okf_default_params)) (map (ex97_call ex97_vis') (seq 0 calls)) heap g dummy (le_n _) ltac:(lia) ltac:(cbn; auto) (ex97_tracker _) eq_refl eq_refl (ex97_scene _ _ calls) (ex97_no_return' _)
    (ex97_apart _ (2 + 21 / 20 * (15 + 1)) _ ltac:(lra))).
Qed.
(** Its third thing: the credit is 6 after call 5; the object is returned until call 11 and dropped in call 13. *)
Example ex97_leaves : map (credit ex97_vis 15 2) [4; 5; 11; 12; 13]%nat = [Some 5; Some 6; Some 0; Some (-1); Some (-2)]%Z.
Proof. reflexivity. Qed.

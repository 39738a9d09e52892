(** Proofs about the grid of points on a sphere. *)
From Coq Require Import ZArith Reals List Lra Lia.
From Verif Require Import Model.Base Model.Grid Spec.GridSpec.
Import ListNotations.
Local Open Scope R_scope.

Lemma ceil_half n : (1 <= n)%nat -> Z.to_nat (ceilR (INR n - 1 / 2)) = n.
Proof.
  intros L. unfold ceilR. assert (E : up (- (INR n - 1 / 2)) = (1 - Z.of_nat n)%Z).
  { symmetry. apply tech_up; rewrite minus_IZR, <- INR_IZR_INZ; lra. }
  rewrite E. lia.
Qed.
Lemma mgrid_angles n : (1 <= n)%nat -> mgrid (- PI / 2 + PI / INR n / 2) (PI / 2) (PI / INR n) = map (spread n) (seq 0 n).
Proof.
  intros L. assert (NZ : INR n <> 0) by (apply not_0_INR; lia). assert (P := PI_RGT_0). unfold mgrid.
  replace ((PI / 2 - (- PI / 2 + PI / INR n / 2)) / (PI / INR n)) with (INR n - 1 / 2) by (field; split; [exact NZ|apply PI_neq0]).
  rewrite ceil_half by exact L. apply map_ext. intros k. unfold spread. field. exact NZ.
Qed.
Lemma spread_range n k : (k < n)%nat -> - (PI / 2) < spread n k < PI / 2.
Proof.
  intros L. assert (P := PI_RGT_0). assert (N : 0 < INR n) by (apply lt_0_INR; lia). assert (K := pos_INR k).
  assert (KN : INR k + 1 <= INR n) by (rewrite <- S_INR; apply le_INR; lia).
  assert (Q : 0 < PI / INR n) by (apply Rdiv_lt_0_compat; assumption).
  unfold spread. split.
  - assert (0 < (INR k + 1 / 2) * (PI / INR n)) by (apply Rmult_lt_0_compat; lra). lra.
  - assert (H : (INR k + 1 / 2) * (PI / INR n) < INR n * (PI / INR n)) by (apply Rmult_lt_compat_r; lra).
    replace (INR n * (PI / INR n)) with PI in H by (field; lra). lra.
Qed.
Lemma cos_spread n k : (k < n)%nat -> 0 < cos (spread n k).
Proof. intros L. destruct (spread_range n k L). apply cos_gt_0; assumption. Qed.

Lemma equator_on_sphere n i j : (i < n)%nat -> (j < n)%nat -> on_sphere (from_equator (spread n i) (spread n j)).
Proof.
  intros Li Lj. cbn. set (a := spread n i). set (b := spread n j). split.
  - assert (A := sin2_cos2 a). assert (B := sin2_cos2 b). unfold Rsqr in *.
    replace (cos a * sin b * (cos a * sin b) + sin a * sin a + cos a * cos b * (cos a * cos b)) with
      (cos a * cos a * (sin b * sin b + cos b * cos b) + sin a * sin a) by ring. rewrite B. lra.
  - apply Rmult_lt_0_compat; apply cos_spread; assumption.
Qed.
Lemma pole_on_sphere n i j : (i < n)%nat -> on_sphere (from_pole (spread n i) (spread n j)).
Proof.
  intros Li. cbn. set (a := spread n i). set (b := spread n j). split.
  - assert (A := sin2_cos2 a). assert (B := sin2_cos2 b). unfold Rsqr in *.
    replace (sin a * cos b * (sin a * cos b) + sin a * sin b * (sin a * sin b) + cos a * cos a) with
      (sin a * sin a * (sin b * sin b + cos b * cos b) + cos a * cos a) by ring. rewrite B. lra.
  - apply cos_spread; assumption.
Qed.

Lemma grid_points n w h polar : (1 <= n)%nat ->
  get_grid n w h polar = Ret (flat_map (fun i => map (fun j => seen_at w h (viewpoint polar (spread n i) (spread n j))) (seq 0 n)) (seq 0 n)).
Proof.
  intros L. unfold get_grid. destruct n as [|n']; [lia|]. set (n := S n') in *.
  rewrite mgrid_angles by exact L. f_equal. rewrite flat_map_concat_map, map_map, <- flat_map_concat_map.
  rewrite !flat_map_concat_map. f_equal. apply map_ext_in. intros i Hi. apply in_seq in Hi. rewrite map_map. apply map_ext_in. intros j Hj. apply in_seq in Hj.
  assert (CI := cos_spread n i ltac:(lia)). assert (CJ := cos_spread n j ltac:(lia)).
  destruct polar; cbn; unfold tan; f_equal; field; lra.
Qed.
Lemma nth_flat_map {A} (f : nat -> nat -> A) n d i j : forall m k, (i < m)%nat -> (j < n)%nat ->
  nth (i * n + j) (flat_map (fun a => map (f a) (seq 0 n)) (seq k m)) d = f (k + i)%nat j.
Proof.
  induction i as [|i IH]; intros m k Li Lj; destruct m as [|m]; try lia; cbn [seq flat_map].
  - cbn. rewrite app_nth1 by (rewrite map_length, seq_length; exact Lj). rewrite (nth_indep _ d (f k 0%nat)) by (rewrite map_length, seq_length; exact Lj).
    rewrite map_nth, seq_nth by exact Lj. rewrite Nat.add_0_r. reflexivity.
  - rewrite app_nth2 by (rewrite map_length, seq_length; lia). rewrite map_length, seq_length.
    replace (S i * n + j - n)%nat with (i * n + j)%nat by lia. rewrite IH by lia. f_equal. lia.
Qed.
Lemma flat_map_len {A} (f : nat -> nat -> A) n : forall m k, length (flat_map (fun a => map (f a) (seq 0 n)) (seq k m)) = (m * n)%nat.
Proof. induction m as [|m IH]; intros k; [reflexivity|]. cbn [seq flat_map]. rewrite app_length, map_length, seq_length, IH. reflexivity. Qed.
Lemma grid_spec n w h polar : (1 <= n)%nat -> exists g, get_grid n w h polar = Ret g /\ length g = (n * n)%nat /\
  forall i j, (i < n)%nat -> (j < n)%nat -> let p := viewpoint polar (spread n i) (spread n j) in
    on_sphere p /\ nth_error g (i * n + j) = Some (seen_at w h p).
Proof.
  intros L. eexists; split; [apply grid_points; exact L|]. split; [apply flat_map_len|]. intros i j Li Lj p. split.
  - unfold p. destruct polar; [apply pole_on_sphere; exact Li|apply equator_on_sphere; assumption].
  - set (F := fun a b => seen_at w h (viewpoint polar (spread n a) (spread n b))). set (l := flat_map _ _).
    assert (LL : (i * n + j < length l)%nat) by (unfold l; rewrite (flat_map_len F); nia).
    rewrite (nth_error_nth' l (0, 0) LL). f_equal. exact (nth_flat_map F n (0, 0) i j n 0 Li Lj).
Qed.

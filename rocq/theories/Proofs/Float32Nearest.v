(** C101: the model's conversion to float32 is IEEE 754 rounding to nearest, ties to even, as formalised in Flocq. *)
From Coq Require Import ZArith QArith Reals Qreals Bool Lia Lra.
From Flocq Require Import Core.
From Verif Require Import Model.Num Model.Float32 Spec.Float32Spec.
Local Open Scope R_scope.

Lemma pow2 e : (0 <= e)%Z -> IZR (2 ^ e) = bpow radix2 e.
Proof. intros H. apply (IZR_Zpower radix2 e H). Qed.
Lemma bpow_pos e : 0 < bpow radix2 e. Proof. apply bpow_gt_0. Qed.
Lemma div_lt a b c : 0 < b -> a < b * c -> a / b < c.
Proof. intros Hb H. apply Rmult_lt_reg_l with b; auto. unfold Rdiv. rewrite (Rmult_comm a), <- Rmult_assoc, Rinv_r by lra. lra. Qed.
Lemma div_le a b c : 0 < b -> b * c <= a -> c <= a / b.
Proof. intros Hb H. apply Rmult_le_reg_l with b; auto. unfold Rdiv. rewrite (Rmult_comm a), <- Rmult_assoc, Rinv_r by lra. lra. Qed.

Lemma half_even a b : (0 < b)%Z -> div_half_even a b = ZnearestE (IZR a / IZR b).
Proof.
  intros Hb. unfold div_half_even, Znearest. rewrite Zfloor_div by lia.
  assert (Pb : 0 < IZR b) by (apply IZR_lt; exact Hb).
  assert (E : IZR a / IZR b - IZR (a / b) = IZR (a mod b) / IZR b).
  { rewrite (Z_div_mod_eq_full a b) at 1. rewrite plus_IZR, mult_IZR. field. lra. }
  rewrite E. pose proof (Z.mod_pos_bound a b Hb) as M.
  assert (C : Z.compare (2 * (a mod b)) b = Rcompare (IZR (a mod b) / IZR b) (/ 2)).
  { symmetry. destruct (Z.compare_spec (2 * (a mod b)) b) as [H|H|H].
    - apply Rcompare_Eq. apply (f_equal IZR) in H. rewrite mult_IZR in H. set (r := IZR (a mod b)) in *. replace r with (IZR b / 2) by lra. field. lra.
    - apply Rcompare_Lt. apply IZR_lt in H. rewrite mult_IZR in H. apply div_lt; lra.
    - apply Rcompare_Gt. apply IZR_lt in H. rewrite mult_IZR in H. apply Rmult_lt_reg_l with (IZR b); auto.
      replace (IZR b * (IZR (a mod b) / IZR b)) with (IZR (a mod b)) by (field; lra). lra. }
  rewrite <- C.
  assert (Hc : (0 < a mod b)%Z -> (a / b + 1)%Z = Zceil (IZR a / IZR b)).
  { intros H. symmetry. apply Zceil_imp. replace (a / b + 1 - 1)%Z with (a / b)%Z by lia. rewrite plus_IZR.
    assert (H1 : 0 < IZR (a mod b) / IZR b) by (apply Rdiv_lt_0_compat; auto; apply IZR_lt; lia).
    assert (H2 : IZR (a mod b) / IZR b < 1) by (apply div_lt; auto; rewrite Rmult_1_r; apply IZR_lt; lia).
    split; lra. }
  destruct (Z.compare_spec (2 * (a mod b)) b) as [H|H|H]; auto.
  - destruct (Z.even (a / b)); cbn; auto. apply Hc. lia.
  - apply Hc. lia.
Qed.

Lemma abs_frac n d : Rabs (Q2R (n # d)) = IZR (Z.abs n) / IZR (Zpos d).
Proof.
  unfold Q2R. cbn. rewrite Rabs_mult, (Rabs_pos_eq (/ IZR (Zpos d))), abs_IZR; auto.
  left. apply Rinv_0_lt_compat. apply IZR_lt. lia.
Qed.
Lemma log_bounds n d : n <> 0%Z -> bpow radix2 (floor_log2 n d) <= Rabs (Q2R (n # d)) < bpow radix2 (floor_log2 n d + 1).
Proof.
  intros Hn. rewrite abs_frac. unfold floor_log2. set (a := Z.log2 (Z.abs n)). set (b := Z.log2 (Zpos d)). set (e := (a - b)%Z).
  pose proof (Z.log2_spec (Z.abs n) ltac:(lia)) as [A1 A2]. pose proof (Z.log2_spec (Zpos d) ltac:(lia)) as [B1 B2].
  fold a in A1, A2. fold b in B1, B2. pose proof (Z.log2_nonneg (Z.abs n)) as An. pose proof (Z.log2_nonneg (Zpos d)) as Bn. fold a in An. fold b in Bn.
  apply IZR_le in A1, B1. apply IZR_lt in A2, B2. rewrite pow2 in A1, B1 by lia. rewrite <- Z.add_1_r, pow2 in A2, B2 by lia.
  assert (Pd : 0 < IZR (Zpos d)) by (apply IZR_lt; lia).
  set (x := IZR (Z.abs n)) in *. set (y := IZR (Zpos d)) in *.
  (* 2^(e-1) < x/y < 2^(e+1) *)
  assert (Up : x / y < bpow radix2 (e + 1)).
  { apply div_lt; auto. apply Rlt_le_trans with (bpow radix2 (a + 1)); auto. replace (a + 1)%Z with (b + (e + 1))%Z by (unfold e; lia). rewrite (bpow_plus radix2 b).
    apply Rmult_le_compat_r; auto. left. apply bpow_pos. }
  assert (Lo : bpow radix2 (e - 1) <= x / y).
  { apply div_le; auto. apply Rle_trans with (bpow radix2 a); auto. replace a with ((b + 1) + (e - 1))%Z by (unfold e; lia). rewrite (bpow_plus radix2 (b + 1)).
    apply Rmult_le_compat_r; [left; apply bpow_pos|lra]. }
  assert (Hl : (if (0 <=? e)%Z then (Z.abs n <? Zpos d * 2 ^ e)%Z else (Z.abs n * 2 ^ (- e) <? Zpos d)%Z) = true <-> x / y < bpow radix2 e).
  { assert (R1 : x / y < bpow radix2 e <-> x < y * bpow radix2 e).
    { split; [|apply div_lt; auto]. intros H. apply Rmult_lt_compat_l with (r := y) in H; auto. replace (y * (x / y)) with x in H by (field; lra). exact H. }
    rewrite R1. destruct (Z.leb_spec 0 e) as [He|He]; rewrite Z.ltb_lt.
    - rewrite <- pow2 by exact He. unfold x, y. rewrite <- mult_IZR. split; [apply IZR_lt|apply lt_IZR].
    - assert (E : bpow radix2 e * bpow radix2 (- e) = 1) by (rewrite <- bpow_plus; replace (e + - e)%Z with 0%Z by lia; reflexivity).
      assert (R2 : (Z.abs n * 2 ^ (- e) < Zpos d)%Z <-> x * bpow radix2 (- e) < y).
      { rewrite <- pow2 by lia. unfold x, y. rewrite <- mult_IZR. split; [apply IZR_lt|apply lt_IZR]. }
      rewrite R2. pose proof (bpow_pos e). pose proof (bpow_pos (- e)). split; intros H1; nra. }
  destruct (if (0 <=? e)%Z then _ else _).
  - replace (e - 1 + 1)%Z with e by lia. split; auto. apply Hl. reflexivity.
  - split; auto. destruct (Rlt_le_dec (x / y) (bpow radix2 e)) as [H|H]; auto. apply Hl in H. discriminate.
Qed.
Lemma ulp_exponent n d : n <> 0%Z -> ulp_exp n d = cexp radix2 (FLT_exp (-149) 24) (Q2R (n # d)).
Proof.
  intros Hn. unfold cexp, ulp_exp, FLT_exp. pose proof (log_bounds n d Hn) as H.
  rewrite (mag_unique radix2 (Q2R (n # d)) (floor_log2 n d + 1)) by (replace (floor_log2 n d + 1 - 1)%Z with (floor_log2 n d) by lia; exact H). lia.
Qed.
Lemma scale_real m k : Q2R (scale2 m k) = IZR m * bpow radix2 k.
Proof.
  unfold scale2. destruct (Z.leb_spec 0 k) as [H|H].
  - unfold Q2R, inject_Z. cbn. rewrite mult_IZR, pow2 by exact H. field.
  - unfold Q2R. cbn. rewrite Z2Pos.id by (apply Z.pow_pos_nonneg; lia). rewrite pow2 by lia. rewrite bpow_opp. rewrite Rinv_inv. reflexivity.
Qed.
Lemma parts_round n d : n <> 0%Z -> let (m, k) := round32_parts n d in IZR m * bpow radix2 k = float32_nearest (Q2R (n # d)).
Proof.
  intros Hn. unfold round32_parts, float32_nearest, round, F2R. cbn [Fnum Fexp]. rewrite <- (ulp_exponent n d Hn). unfold scaled_mantissa. rewrite <- (ulp_exponent n d Hn).
  set (k := ulp_exp n d). f_equal. f_equal. assert (Pd : IZR (Zpos d) <> 0) by (apply not_0_IZR; lia). destruct (Z.leb_spec 0 k) as [H|H].
  - assert (P2 : (0 < 2 ^ k)%Z) by (apply Z.pow_pos_nonneg; lia). rewrite half_even by lia. f_equal. rewrite mult_IZR, pow2 by exact H. unfold Q2R. cbn. rewrite bpow_opp. field.
    split; auto. apply Rgt_not_eq, bpow_pos.
  - rewrite half_even by lia. f_equal. rewrite mult_IZR, pow2 by lia. unfold Q2R. cbn. field. auto.
Qed.

Lemma nearest_zero : float32_nearest 0 = 0.
Proof. unfold float32_nearest. apply round_0. apply valid_rnd_N. Qed.
Lemma pow128 : IZR (2 ^ 128) = bpow radix2 128. Proof. apply pow2. lia. Qed.
Lemma Q2R_Z z : Q2R (inject_Z z) = IZR z.
Proof. unfold Q2R, inject_Z. cbn. field. Qed.
Theorem round32_nearest q : stored_as (Q2R q) (round32 (DFin (q : QNum))).
Proof.
  destruct q as [n d]. cbn [round32]. unfold round32Q. cbn [Qnum Qden]. unfold stored_as. destruct (Z.eqb_spec n 0) as [->|Hn].
  - replace (Q2R (0 # d)) with 0 by (unfold Q2R; cbn; ring). rewrite nearest_zero. rewrite Rabs_R0. split; [apply bpow_pos|]. unfold Q2R. cbn. ring.
  - pose proof (parts_round n d Hn) as P. destruct (round32_parts n d) as [m k]. rewrite <- scale_real in P. rewrite <- P. set (r := scale2 m k).
    assert (H1 : forall z, Qle_bool (inject_Z z) r = true <-> IZR z <= Q2R r).
    { intros z. rewrite Qle_bool_iff, <- Q2R_Z. split; [apply Qle_Rle|apply Rle_Qle]. }
    assert (H2 : forall z, Qle_bool r (inject_Z z) = true <-> Q2R r <= IZR z).
    { intros z. rewrite Qle_bool_iff, <- Q2R_Z. split; [apply Qle_Rle|apply Rle_Qle]. }
    specialize (H1 (2 ^ 128)%Z). specialize (H2 (- 2 ^ 128)%Z). rewrite opp_IZR in H2. rewrite pow128 in H1, H2.
    destruct (Qle_bool (inject_Z (2 ^ 128)) r); [apply H1; reflexivity|].
    destruct (Qle_bool r (inject_Z (- 2 ^ 128))); [apply H2; reflexivity|].
    split; [|reflexivity]. apply Rabs_lt. split; apply Rnot_le_lt; intros X; [apply H2 in X|apply H1 in X]; discriminate.
Qed.

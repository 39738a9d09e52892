(** Rounding error of [round32] and its effect on the matching loop. *)
From Coq Require Import ZArith QArith Lia Bool List.
From Verif Require Import Model.Num Model.Float32 Proofs.NumLaws.
Local Open Scope Z_scope.

Lemma div_half_even_err a b : 0 < b -> - b <= 2 * (a - b * div_half_even a b) <= b.
Proof.
  intros Hb. unfold div_half_even.
  pose proof (Z.div_mod a b ltac:(lia)) as E. pose proof (Z.mod_pos_bound a b Hb) as B.
  destruct (Z.compare_spec (2 * (a mod b)) b).
  - destruct (Z.even (a / b)); nia.
  - nia.
  - nia.
Qed.

Lemma floor_log2_lt n d k : 0 <= k -> n <> 0 -> Z.abs n < Zpos d * 2 ^ (k + 1) -> floor_log2 n d <= k.
Proof.
  intros Hk Hn H. unfold floor_log2.
  set (a := Z.abs n) in *. assert (Ha : 0 < a) by lia.
  assert (Hd : Zpos d < 2 ^ (Z.log2 (Zpos d) + 1)).
  { pose proof (Z.log2_spec (Zpos d) ltac:(lia)). rewrite Z.add_1_r. lia. }
  assert (Hlog : Z.log2 a <= Z.log2 (Zpos d) + (k + 1)).
  { assert (Ha2 : a < 2 ^ (Z.log2 (Zpos d) + 1 + (k + 1))).
    { pose proof (Z.log2_nonneg (Zpos d)).
      rewrite (Z.pow_add_r 2 (Z.log2 (Zpos d) + 1)) by lia.
      assert (0 < 2 ^ (k + 1)) by (apply Z.pow_pos_nonneg; lia). nia. }
    apply Z.log2_lt_pow2 in Ha2; [lia|lia]. }
  destruct (Z.leb_spec 0 (Z.log2 a - Z.log2 (Zpos d))) as [He|He].
  - destruct (Z.ltb_spec a (Zpos d * 2 ^ (Z.log2 a - Z.log2 (Zpos d)))) as [Hl|Hl]; [lia|].
    destruct (Z.eq_dec (Z.log2 a - Z.log2 (Zpos d)) (k + 1)) as [E|E]; [rewrite E in Hl; lia|lia].
  - destruct (a * 2 ^ (- (Z.log2 a - Z.log2 (Zpos d))) <? Zpos d); lia.
Qed.

(** The rounded value is at most one below (24 bit significand, argument smaller than 2^25). *)
Lemma round32_parts_ge n d : n <> 0 -> Z.abs n < Zpos d * 2 ^ 25 ->
  let (m, k) := round32_parts n d in ((n # d) - 1 <= scale2 m k)%Q.
Proof.
  intros Hn H. unfold round32_parts.
  assert (Hk : ulp_exp n d <= 1).
  { unfold ulp_exp. pose proof (floor_log2_lt n d 24 ltac:(lia) Hn H). lia. }
  set (k := ulp_exp n d) in *. clearbody k. unfold scale2.
  destruct (Z.leb_spec 0 k) as [Hk0|Hk0].
  - assert (Hp : 0 < 2 ^ k <= 2).
    { assert (k = 0 \/ k = 1) as [-> | ->] by lia; cbn; lia. }
    pose proof (div_half_even_err n (Zpos d * 2 ^ k) ltac:(nia)) as E.
    set (q := div_half_even n (Z.pos d * 2 ^ k)) in *. clearbody q.
    unfold Qle, Qminus, Qplus, Qopp, inject_Z; cbn [Qnum Qden]. nia.
  - assert (Hp : 0 < 2 ^ (- k)) by (apply Z.pow_pos_nonneg; lia).
    pose proof (div_half_even_err (n * 2 ^ (- k)) (Zpos d) ltac:(lia)) as E.
    set (q := div_half_even _ _) in *. clearbody q.
    unfold Qle, Qminus, Qplus, Qopp; cbn [Qnum Qden].
    rewrite Pos.mul_1_r. rewrite Z2Pos.id by auto.
    set (p := 2 ^ (- k)) in *. clearbody p. nia.
Qed.

Theorem round32_succ_ge (thr : Q) : (- inject_Z (2 ^ 24) <= thr <= inject_Z (2 ^ 24))%Q ->
  dltb (round32 (dsucc (DFin (thr : QNum)))) (DFin (thr : QNum)) = false.
Proof.
  intros [Hlo Hhi]. cbn [dsucc nadd n1 QNum round32].
  assert (Ex : (Qred (thr + 1) == thr + 1)%Q) by apply Qred_correct.
  set (x := Qred (thr + 1)) in *. clearbody x.
  unfold round32Q. destruct (Z.eqb_spec (Qnum x) 0) as [H0|H0].
  - cbn. apply Qltb_ge. assert (x == 0)%Q by (unfold Qeq; cbn; lia).
    rewrite H in Ex. unfold Qeq, Qle in *; cbn in *; lia.
  - assert (Habs : Z.abs (Qnum x) < Zpos (Qden x) * 2 ^ 25).
    { destruct x as [n d]. unfold Qle, Qeq, Qplus, inject_Z, Qopp in *; cbn [Qnum Qden] in *.
      change (2 ^ 24) with 16777216 in *. change (2 ^ 25) with 33554432 in *.
      rewrite ?Z.mul_1_r, ?Pos.mul_1_r in *.
      destruct thr as [tn td]; cbn [Qnum Qden] in *. nia. }
    pose proof (round32_parts_ge (Qnum x) (Qden x) H0 Habs) as R.
    destruct (round32_parts (Qnum x) (Qden x)) as [m k].
    set (r := scale2 m k) in *. clearbody r.
    assert (Hr : (thr <= r)%Q).
    { eapply Qle_trans; [|exact R]. destruct x as [n d]; cbn [Qnum Qden] in *. rewrite Ex.
      rewrite <- (Qplus_0_r thr) at 1. unfold Qminus. rewrite <- Qplus_assoc.
      apply Qplus_le_compat; [apply Qle_refl|]. discriminate. }
    destruct (Qle_bool (inject_Z (2 ^ 128)) r); [reflexivity|].
    destruct (Qle_bool r (inject_Z (- 2 ^ 128))) eqn:E.
    + exfalso. apply Qle_bool_iff in E.
      assert (X : (- inject_Z (2 ^ 24) <= inject_Z (- 2 ^ 128))%Q).
      { eapply Qle_trans; [exact Hlo|]. eapply Qle_trans; eauto. }
      unfold Qle in X; cbn in X. lia.
    + cbn. apply Qltb_ge. auto.
Qed.

Lemma round32_not_nan x : dis_nan (round32 x) = dis_nan x.
Proof.
  destruct x; auto. cbn. unfold round32Q. destruct (Qnum n =? 0); auto.
  destruct (round32_parts _ _). destruct (Qle_bool _ _); auto. destruct (Qle_bool _ _); auto.
Qed.

(** The optimized filter and the matrix filter, coordinate by coordinate: C32-C34, C36. *)
From Coq Require Import Reals Lra Lia Psatz Bool List Arith.
From Verif Require Import Model.Num Model.Base Model.Filter Model.KalmanMatrix Spec.KalmanSpec Spec.PointSpec.
From Verif Require Import Proofs.MatrixProofs Proofs.PointProofs Proofs.FilterTracker.
Import ListNotations.
Local Open Scope R_scope.

Notation crd := (coord RNum).

(* ---- one coordinate ---- *)
Definition c2_predict (qp qv : R) (c : crd) : crd :=
  MkCoord (N := RNum) (c_pos c + c_vel c) (c_vel c) (c_pv c + 2 * c_cov c + c_vv c + qp) (c_cov c + c_vv c) (c_vv c + qv).
Definition c2_update (r : R) (c : crd) (z m : R) : crd :=
  let s := / (m * (c_pv c * m) + r) in
  let k1 := c_pv c * m * s in
  let k2 := c_cov c * m * s in
  let y := z - m * c_pos c in
  MkCoord (N := RNum) (c_pos c + k1 * y) (c_vel c + k2 * y)
    ((1 - k1 * m) * c_pv c * (1 - k1 * m) + k1 * r * k1)
    ((1 - k1 * m) * c_pv c * (0 - k2 * m) + (1 - k1 * m) * c_cov c + k1 * r * k2)
    (((0 - k2 * m) * c_pv c + c_cov c) * (0 - k2 * m) + ((0 - k2 * m) * c_cov c + c_vv c) + k2 * r * k2).

Record like (d : nat) (c : nat -> crd) (s : kstate) : Prop := {
  lk_pos : forall k, (k < d)%nat -> kx s k = c_pos (c k);
  lk_vel : forall k, (k < d)%nat -> kx s (k + d)%nat = c_vel (c k);
  lk_P : meq (2 * d) (2 * d) (kP s) (blk d (fun k => c_pv (c k)) (fun k => c_cov (c k)) (fun k => c_cov (c k)) (fun k => c_vv (c k)))
}.

Lemma F_blk d : meq (2 * d) (2 * d) (cv_F d) (blk d (fun _ => 1) (fun _ => 1) zf (fun _ => 1)).
Proof. intros i j Hi Hj. unfold cv_F, blk, zf. cases; reflexivity. Qed.
Lemma Q_blk d a b : meq (2 * d) (2 * d) (pos_vel_diag d a b) (blk d (fun _ => a) zf zf (fun _ => b)).
Proof. intros i j Hi Hj. unfold pos_vel_diag, blk, zf. cases; reflexivity. Qed.
Lemma scalar_pv d q i j : scalar_mat q i j = pos_vel_diag d q q i j.
Proof. unfold scalar_mat, pos_vel_diag. cases; reflexivity. Qed.
Lemma eye_blk d : meq (2 * d) (2 * d) eye (blk d (fun _ => 1) zf zf (fun _ => 1)).
Proof. intros i j Hi Hj. unfold eye, blk, zf. cases; reflexivity. Qed.
Lemma H_blk d (m : list R) : length m = d -> meq (2 * d) (2 * d) (mask_H m) (blk d (fun k => nth k m 0) zf zf zf).
Proof.
  intros L i j Hi Hj. unfold mask_H, blk, zf. cases; try reflexivity. apply nth_overflow. lia.
Qed.

Lemma kf_predict_like d qp qv c s Q : meq (2 * d) (2 * d) Q (pos_vel_diag d qp qv) -> like d c s ->
  like d (fun k => c2_predict qp qv (c k)) (kf_predict (2 * d) (cv_F d) Q s).
Proof.
  intros HQ [L1 L2 L3]. split.
  - intros k Hk. cbn [kf_predict kx]. rewrite (mvec_ext (2 * d) (2 * d) _ _ (kx s) (kx s) (F_blk d)) by (auto; lia).
    rewrite (proj1 (blk_vec _ _ _ _ _ _ _ Hk)), L1, L2 by auto. cbn. ring.
  - intros k Hk. cbn [kf_predict kx]. rewrite (mvec_ext (2 * d) (2 * d) _ _ (kx s) (kx s) (F_blk d)) by (auto; lia).
    rewrite (proj2 (blk_vec _ _ _ _ _ _ _ Hk)), L1, L2 by auto. unfold zf. cbn. ring.
  - cbn [kf_predict kP]. intros i j Hi Hj. unfold madd at 1. rewrite HQ, Q_blk by auto.
    erewrite (mmul_ext (2 * d) (2 * d) (2 * d)); [| | |exact Hi|exact Hj].
    2:{ eapply meq_trans; [apply (mmul_ext _ _ (2 * d)); [apply F_blk|exact L3]|apply blk_mul]. }
    2:{ intros a b Ha Hb. unfold tr. rewrite F_blk by auto. apply (blk_tr d _ _ _ _ a b Ha Hb). }
    rewrite blk_mul by auto.
    transitivity (madd (blk d
      (fun k => (1 * c_pv (c k) + 1 * c_cov (c k)) * 1 + (1 * c_cov (c k) + 1 * c_vv (c k)) * 1)
      (fun k => (1 * c_pv (c k) + 1 * c_cov (c k)) * 0 + (1 * c_cov (c k) + 1 * c_vv (c k)) * 1)
      (fun k => (0 * c_pv (c k) + 1 * c_cov (c k)) * 1 + (0 * c_cov (c k) + 1 * c_vv (c k)) * 1)
      (fun k => (0 * c_pv (c k) + 1 * c_cov (c k)) * 0 + (0 * c_cov (c k) + 1 * c_vv (c k)) * 1))
      (blk d (fun _ => qp) zf zf (fun _ => qv)) i j); [reflexivity|].
    rewrite blk_add. apply blk_ext; auto. intros k Hk. unfold zf. cbn. repeat split; ring.
Qed.

Lemma kf_update_like d inv r c s (z m : list R) : inverts_diagonal inv -> length m = d -> like d c s ->
  (forall k, (k < d)%nat -> nth k m 0 * (c_pv (c k) * nth k m 0) + r <> 0) ->
  like d (fun k => c2_update r (c k) (nth k z 0) (nth k m 0))
         (kf_update (2 * d) d inv (mask_H m) (scalar_mat r) (fun i => nth i z 0) s).
Proof.
  intros Hinv Lm [L1 L2 L3] HS.
  pose (mk := fun k => nth k m 0).
  pose (sk := fun k => / (mk k * (c_pv (c k) * mk k) + r)).
  pose (k1 := fun k => c_pv (c k) * mk k * sk k).
  pose (k2 := fun k => c_cov (c k) * mk k * sk k).
  pose proof (H_blk d m Lm) as HH. fold mk in HH.
  assert (HT : meq (2 * d) (2 * d) (tr (mask_H m)) (blk d mk zf zf zf)).
  { intros i j Hi Hj. unfold tr. rewrite HH by auto. apply (blk_tr d _ _ _ _ i j Hi Hj). }
  unfold kf_update. set (PHT := mmul (2 * d) (kP s) (tr (mask_H m))).
  assert (HP : meq (2 * d) (2 * d) PHT (blk d (fun k => c_pv (c k) * mk k) zf (fun k => c_cov (c k) * mk k) zf)).
  { unfold PHT. eapply meq_trans; [apply (mmul_ext _ _ (2 * d)); [exact L3|exact HT]|]. eapply meq_trans; [apply blk_mul|].
    intros i j Hi Hj. apply blk_ext; auto. intros k Hk. unfold zf. repeat split; ring. }
  set (Sm := madd (mmul (2 * d) (mask_H m) PHT) (scalar_mat r)).
  assert (HSm : meq d d Sm (blk d (fun k => mk k * (c_pv (c k) * mk k) + r) zf zf zf)).
  { intros i j Hi Hj. unfold Sm, madd. erewrite (mmul_ext (2 * d) (2 * d) (2 * d)); [|exact HH|exact HP|lia|lia].
    rewrite blk_mul by lia. rewrite !blk_00 by auto. unfold scalar_mat, zf. destruct (Nat.eqb i j); ring. }
  assert (HI : meq d (2 * d) (fun i j => if Nat.ltb j d then inv d Sm i j else 0) (blk d sk zf zf zf)).
  { intros i j Hi Hj. destruct (Nat.ltb_spec j d) as [Hj'|Hj'].
    - rewrite Hinv; auto.
      + rewrite HSm, !blk_00, Nat.eqb_refl by auto. destruct (Nat.eqb i j); reflexivity.
      + intros a b Ha Hb Hab. rewrite HSm, blk_00 by auto. apply Nat.eqb_neq in Hab. rewrite Hab. reflexivity.
      + intros a Ha. rewrite HSm, blk_00, Nat.eqb_refl by auto. apply HS; auto.
    - unfold blk, zf. cases; reflexivity. }
  set (K := mmul d PHT (inv d Sm)).
  assert (HK : meq (2 * d) d K (blk d k1 zf k2 zf)).
  { intros i j Hi Hj. unfold K.
    transitivity (mmul d (blk d (fun k => c_pv (c k) * mk k) zf (fun k => c_cov (c k) * mk k) zf) (blk d sk zf zf zf) i j).
    - unfold mmul. apply sum_ext. intros l Hl. rewrite HP by lia. f_equal.
      rewrite <- HI by lia. destruct (Nat.ltb_spec j d); [reflexivity|lia].
    - rewrite blk_mul_half by lia. apply blk_ext; try lia. intros k Hk. unfold zf, k1, k2. repeat split; ring. }
  assert (HKH : meq (2 * d) (2 * d) (mmul d K (mask_H m)) (blk d (fun k => k1 k * mk k) zf (fun k => k2 k * mk k) zf)).
  { intros i j Hi Hj. transitivity (mmul d (blk d k1 zf k2 zf) (blk d mk zf zf zf) i j).
    - apply (mmul_ext d (2 * d) (2 * d)); auto. apply (meq_sub (2 * d) (2 * d)); auto; lia.
    - rewrite blk_mul_half by auto. apply blk_ext; auto. intros k Hk. unfold zf. repeat split; ring. }
  set (IKH := msub eye (mmul d K (mask_H m))).
  assert (HIKH : meq (2 * d) (2 * d) IKH (blk d (fun k => 1 - k1 k * mk k) zf (fun k => 0 - k2 k * mk k) (fun _ => 1))).
  { intros i j Hi Hj. unfold IKH. transitivity (msub (blk d (fun _ => 1) zf zf (fun _ => 1)) (blk d (fun k => k1 k * mk k) zf (fun k => k2 k * mk k) zf) i j).
    - unfold msub. rewrite HKH, (eye_blk d) by auto. reflexivity.
    - rewrite blk_sub. apply blk_ext; auto. intros k Hk. unfold zf. repeat split; ring. }
  assert (HIT : meq (2 * d) (2 * d) (tr IKH) (blk d (fun k => 1 - k1 k * mk k) (fun k => 0 - k2 k * mk k) zf (fun _ => 1))).
  { intros i j Hi Hj. unfold tr. rewrite HIKH by auto. apply (blk_tr d _ _ _ _ i j Hi Hj). }
  assert (HKR : meq (2 * d) d (mmul d K (scalar_mat r)) (blk d (fun k => k1 k * r) zf (fun k => k2 k * r) zf)).
  { intros i j Hi Hj. transitivity (mmul d (blk d k1 zf k2 zf) (blk d (fun _ => r) zf zf zf) i j).
    - apply (mmul_ext d (2 * d) d); auto. intros a b Ha Hb. rewrite blk_00 by auto. reflexivity.
    - rewrite blk_mul_half by lia. apply blk_ext; try lia. intros k Hk. unfold zf. repeat split; ring. }
  assert (HKT : meq d (2 * d) (tr K) (blk d k1 k2 zf zf)).
  { intros i j Hi Hj. unfold tr. rewrite HK by lia. apply (blk_tr d k1 zf k2 zf i j); lia. }
  assert (Hy : forall k, (k < d)%nat -> vsub (fun i => nth i z 0) (mvec (2 * d) (mask_H m) (kx s)) k = nth k z 0 - mk k * c_pos (c k)).
  { intros k Hk. unfold vsub. rewrite (mvec_ext (2 * d) (2 * d) _ _ (kx s) (kx s) HH) by (auto; lia).
    rewrite (proj1 (blk_vec _ _ _ _ _ _ _ Hk)), L1 by auto. unfold zf. ring. }
  assert (HKy : forall k, (k < d)%nat ->
     mvec d K (vsub (fun i => nth i z 0) (mvec (2 * d) (mask_H m) (kx s))) k = k1 k * (nth k z 0 - mk k * c_pos (c k)) /\
     mvec d K (vsub (fun i => nth i z 0) (mvec (2 * d) (mask_H m) (kx s))) (k + d)%nat = k2 k * (nth k z 0 - mk k * c_pos (c k))).
  { intros k Hk. rewrite !(mvec_ext d (2 * d) _ _ _ _ HK (fun l _ => eq_refl)) by lia.
    destruct (blk_vec_half d k1 zf k2 zf (vsub (fun i => nth i z 0) (mvec (2 * d) (mask_H m) (kx s))) k Hk) as [-> ->].
    rewrite Hy by auto. auto. }
  split.
  - intros k Hk. cbn [kx]. unfold vadd. rewrite (proj1 (HKy k Hk)), L1 by auto. reflexivity.
  - intros k Hk. cbn [kx]. unfold vadd. rewrite (proj2 (HKy k Hk)), L2 by auto. reflexivity.
  - cbn [kP]. intros i j Hi Hj. unfold madd at 1.
    erewrite (mmul_ext (2 * d) (2 * d) (2 * d)); [| |exact HIT|exact Hi|exact Hj].
    2:{ eapply meq_trans; [apply (mmul_ext _ _ (2 * d)); [exact HIKH|exact L3]|apply blk_mul]. }
    rewrite blk_mul by auto.
    rewrite (mmul_ext d (2 * d) (2 * d) _ _ _ _ HKR HKT i j Hi Hj), blk_mul_half by auto.
    etransitivity; [apply blk_add|]. apply blk_ext; auto. intros k Hk. unfold zf, k1, k2, sk, mk. cbn. repeat split; ring.
Qed.

(* ---- the optimized filter computes the same ---- *)
Definition S_of (q r : R) (c : crd) : R := c_pv c + 2 * c_cov c + c_vv c + q + r.

Lemma coord_is_kalman q r (c : crd) z (b : bool) : r <> 0 -> S_of q r c <> 0 ->
  coord_update (N := RNum) q r (coord_predict (N := RNum) c) z (bit b) = c2_update r (c2_predict q q c) z (bit b).
Proof.
  intros Hr HS. unfold S_of in HS. destruct c as [p v a b0 e]. cbn in HS. unfold coord_update, coord_predict, c2_update, c2_predict. cbn.
  assert (H1 : a + b0 + (b0 + e) + q + r <> 0) by lra.
  assert (H2 : a + 2 * b0 + e + q + r <> 0) by lra.
  destruct b; cbn; f_equal; field; repeat split; try lra; try assumption.
Qed.

(* ---- positivity ---- *)
Definition psd (c : crd) : Prop := 0 <= c_pv c /\ 0 <= c_vv c /\ c_cov c * c_cov c <= c_pv c * c_vv c.
Definition pd (c : crd) : Prop := 0 < c_pv c /\ 0 < c_vv c /\ c_cov c * c_cov c < c_pv c * c_vv c.

Lemma pd_psd c : pd c -> psd c.
Proof. intros (A & B & C). repeat split; lra. Qed.
Lemma psd_diag (c : crd) : psd c -> 0 <= c_pv c + 2 * c_cov c + c_vv c.
Proof.
  intros (A & B & C). destruct c as [p v pv cov vv]. cbn in *. destruct (Rle_or_lt 0 (pv + 2 * cov + vv)) as [H|H]; auto. exfalso.
  assert (X : (pv + vv) * (pv + vv) < (- 2 * cov) * (- 2 * cov)) by (apply Rmult_le_0_lt_compat; lra).
  pose proof (Rle_0_sqr (pv - vv)) as Y. unfold Rsqr in Y. lra.
Qed.
Lemma pd_diag (c : crd) : pd c -> 0 < c_pv c + 2 * c_cov c + c_vv c.
Proof.
  intros (A & B & C). destruct c as [p v pv cov vv]. cbn in *. destruct (Rlt_or_le 0 (pv + 2 * cov + vv)) as [H|H]; auto. exfalso.
  assert (X : (pv + vv) * (pv + vv) <= (- 2 * cov) * (- 2 * cov)) by (apply Rmult_le_compat; lra).
  pose proof (Rle_0_sqr (pv - vv)) as Y. unfold Rsqr in Y. lra.
Qed.
Lemma psd_S q r (c : crd) : 0 <= q -> 0 < r -> psd c -> r <= S_of q r c.
Proof. intros Hq Hr H. apply psd_diag in H. unfold S_of. lra. Qed.
Lemma pd_S q r (c : crd) : 0 <= q -> 0 < r -> pd c -> r < S_of q r c.
Proof. intros Hq Hr H. apply pd_diag in H. unfold S_of. lra. Qed.

(** The covariance of one coordinate after an update, in closed form. *)
Lemma coord_update_cov q r (c : crd) z (b : bool) : S_of q r c <> 0 ->
  let c' := coord_update (N := RNum) q r c z (bit b) in
  let a := c_pv c + 2 * c_cov c + c_vv c + q in
  let h := c_cov c + c_vv c in
  let e := c_vv c + q in
  if b then c_pv c' = a * r / S_of q r c /\ c_cov c' = h * r / S_of q r c /\ c_vv c' = e - h * h / S_of q r c
  else c_pv c' = a /\ c_cov c' = h /\ c_vv c' = e.
Proof.
  intros HS. unfold S_of in *. destruct c as [p v pv cov vv]. cbn in *. assert (H1 : pv + cov + (cov + vv) + q + r <> 0) by lra.
  destruct b; cbn; repeat split; field; repeat split; auto.
Qed.

Lemma psd_pred q (c : crd) : 0 <= q -> psd c -> let a := c_pv c + 2 * c_cov c + c_vv c + q in
  let h := c_cov c + c_vv c in let e := c_vv c + q in 0 <= a /\ 0 <= e /\ h * h <= a * e.
Proof.
  intros Hq H. pose proof (psd_diag _ H). destruct H as (A & B & C). cbv zeta. repeat split; try lra.
  assert (X : (c_pv c + 2 * c_cov c + c_vv c + q) * (c_vv c + q) - (c_cov c + c_vv c) * (c_cov c + c_vv c) =
     (c_pv c * c_vv c - c_cov c * c_cov c) + q * (c_pv c + 2 * c_cov c + c_vv c + c_vv c + q)) by ring.
  assert (0 <= q * (c_pv c + 2 * c_cov c + c_vv c + c_vv c + q)) by (apply Rmult_le_pos; lra). lra.
Qed.
Lemma pd_pred q (c : crd) : 0 <= q -> pd c -> let a := c_pv c + 2 * c_cov c + c_vv c + q in
  let h := c_cov c + c_vv c in let e := c_vv c + q in 0 < a /\ 0 < e /\ h * h < a * e.
Proof.
  intros Hq H. pose proof (pd_diag _ H). destruct H as (A & B & C). cbv zeta. repeat split; try lra.
  assert (X : (c_pv c + 2 * c_cov c + c_vv c + q) * (c_vv c + q) - (c_cov c + c_vv c) * (c_cov c + c_vv c) =
     (c_pv c * c_vv c - c_cov c * c_cov c) + q * (c_pv c + 2 * c_cov c + c_vv c + c_vv c + q)) by ring.
  assert (0 <= q * (c_pv c + 2 * c_cov c + c_vv c + c_vv c + q)) by (apply Rmult_le_pos; lra). lra.
Qed.

Lemma coord_update_psd q r (c : crd) z b : 0 <= q -> 0 < r -> psd c -> psd (coord_update (N := RNum) q r c z (bit b)).
Proof.
  intros Hq Hr H. pose proof (psd_S q r c Hq Hr H) as HS. pose proof (psd_pred q c Hq H) as HP.
  pose proof (coord_update_cov q r c z b ltac:(lra)) as E. cbv zeta in HP, E. unfold psd.
  assert (SA : S_of q r c = c_pv c + 2 * c_cov c + c_vv c + q + r) by reflexivity.
  set (a := c_pv c + 2 * c_cov c + c_vv c + q) in *. set (h := c_cov c + c_vv c) in *. set (e := c_vv c + q) in *.
  destruct HP as (A & B & C).
  destruct b; destruct E as (-> & -> & ->); [|auto].
  set (Sv := S_of q r c) in *. assert (0 < Sv) by lra.
  assert (Hh : h * h / Sv <= e).
  { apply (Rmult_le_reg_r Sv); [lra|]. unfold Rdiv. rewrite Rmult_assoc, Rinv_l, Rmult_1_r by lra.
    apply Rle_trans with (a * e); auto. rewrite SA. nra. }
  repeat split.
  - apply Rmult_le_pos; [nra|]. left. apply Rinv_0_lt_compat. lra.
  - lra.
  - replace (a * r / Sv * (e - h * h / Sv)) with (r / Sv * (a * e - a * (h * h / Sv))) by (field; lra).
    replace (h * r / Sv * (h * r / Sv)) with (r / Sv * (r * (h * h / Sv))) by (field; lra).
    apply Rmult_le_compat_l; [apply Rmult_le_pos; [lra|left; apply Rinv_0_lt_compat; lra]|].
    assert (X : h * h / Sv * Sv = h * h) by (field; lra). rewrite SA in X at 2.
    assert (h * h / Sv * (a + r) = h * h) by lra. lra.
Qed.
Lemma coord_update_pd q r (c : crd) z b : 0 <= q -> 0 < r -> pd c -> pd (coord_update (N := RNum) q r c z (bit b)).
Proof.
  intros Hq Hr H. pose proof (pd_S q r c Hq Hr H) as HS. pose proof (pd_pred q c Hq H) as HP.
  pose proof (coord_update_cov q r c z b ltac:(lra)) as E. cbv zeta in HP, E. unfold pd.
  assert (SA : S_of q r c = c_pv c + 2 * c_cov c + c_vv c + q + r) by reflexivity.
  set (a := c_pv c + 2 * c_cov c + c_vv c + q) in *. set (h := c_cov c + c_vv c) in *. set (e := c_vv c + q) in *.
  destruct HP as (A & B & C).
  destruct b; destruct E as (-> & -> & ->); [|auto].
  set (Sv := S_of q r c) in *. assert (0 < Sv) by lra.
  assert (Hh : h * h / Sv < e).
  { apply (Rmult_lt_reg_r Sv); [lra|]. unfold Rdiv. rewrite Rmult_assoc, Rinv_l, Rmult_1_r by lra.
    apply Rlt_le_trans with (a * e); auto. rewrite SA. nra. }
  repeat split.
  - apply Rmult_lt_0_compat; [nra|]. apply Rinv_0_lt_compat. lra.
  - lra.
  - replace (a * r / Sv * (e - h * h / Sv)) with (r / Sv * (a * e - a * (h * h / Sv))) by (field; lra).
    replace (h * r / Sv * (h * r / Sv)) with (r / Sv * (r * (h * h / Sv))) by (field; lra).
    apply Rmult_lt_compat_l; [apply Rmult_lt_0_compat; [lra|apply Rinv_0_lt_compat; lra]|].
    assert (X : h * h / Sv * Sv = h * h) by (field; lra). rewrite SA in X at 2.
    assert (h * h / Sv * (a + r) = h * h) by lra. lra.
Qed.

(* ---- lists of coordinates ---- *)
Lemma zip_unzip {N : Num} (cs : list (coord N)) : zip_coords (map c_pos cs) (map c_vel cs) (map c_pv cs) (map c_cov cs) (map c_vv cs) = cs.
Proof. induction cs as [|[p v a b e] cs IH]; cbn; auto. rewrite IH. reflexivity. Qed.
Lemma unzip_zip {N : Num} : forall (a b c d e : list N) n, length a = n -> length b = n -> length c = n -> length d = n -> length e = n ->
  map c_pos (zip_coords a b c d e) = a /\ map c_vel (zip_coords a b c d e) = b /\ map c_pv (zip_coords a b c d e) = c /\
  map c_cov (zip_coords a b c d e) = d /\ map c_vv (zip_coords a b c d e) = e.
Proof.
  induction a as [|x a IH]; intros [|y b] [|z c] [|t d] [|u e] n; cbn; intros; subst; try discriminate; auto.
  destruct (IH b c d e (length a)) as (-> & -> & -> & -> & ->); try lia. auto.
Qed.
Lemma okf_arrays {N : Num} d (f : okf N) : okf_wf d f -> let cs := okf_coords f in
  k_x f = map c_pos cs ++ map c_vel cs /\ k_pos_variance f = map c_pv cs /\ k_pos_vel_covariance f = map c_cov cs /\
  k_vel_variance f = map c_vv cs /\ length cs = d.
Proof.
  intros W. pose proof (okf_coords_length _ _ W) as L. destruct W as (A & B & C & D & E & F). cbv zeta. unfold okf_coords in *.
  destruct (unzip_zip (firstn (k_dim_z f) (k_x f)) (skipn (k_dim_z f) (k_x f)) (k_pos_variance f) (k_pos_vel_covariance f) (k_vel_variance f) d)
    as (-> & -> & -> & -> & ->); auto.
  - rewrite firstn_length. lia.
  - rewrite skipn_length. lia.
  - rewrite firstn_skipn. auto.
Qed.

Lemma predict_coords d (f : okf RNum) : okf_wf d f -> okf_coords (okf_predict f) = map (coord_predict (N := RNum)) (okf_coords f).
Proof.
  intros W. pose proof (okf_arrays _ _ W) as (X & PV & CV & VV & L). cbv zeta in *. destruct W as (A & B & _).
  unfold okf_coords at 1, okf_predict. cbn [k_dim_z k_x k_pos_variance k_pos_vel_covariance k_vel_variance].
  rewrite X, PV, CV, VV, A.
  rewrite (firstn_app_len (map c_pos (okf_coords f)) (map c_vel (okf_coords f)) d) by (rewrite map_length; auto).
  rewrite (skipn_app_len (map c_pos (okf_coords f)) (map c_vel (okf_coords f)) d) by (rewrite map_length; auto).
  rewrite (firstn_app_len (A := RNum)) by (rewrite map2_length, !map_length; lia).
  rewrite (skipn_app_len (A := RNum)) by (rewrite map2_length, !map_length; lia).
  generalize (okf_coords f) as cs. intros cs. clear. unfold map2. induction cs as [|c cs IH]; cbn; auto. f_equal. exact IH.
Qed.
Lemma update_coords_eq d (f : okf RNum) (z m : list R) : okf_wf d f -> length z = d -> length m = d ->
  okf_coords (okf_update f z m) = update_coords (N := RNum) (k_q f) (k_default_r f) (okf_coords f) z m.
Proof.
  intros W Lz Lm. pose proof (okf_coords_length _ _ W) as L. unfold okf_coords at 1, okf_update. cbn [k_dim_z k_x k_pos_variance k_pos_vel_covariance k_vel_variance].
  set (cs := update_coords _ _ _ _ _).
  assert (Lc : length cs = k_dim_z f).
  { destruct W as (A & B & C & D & E & F). rewrite A. apply update_coords_length; auto. }
  rewrite (firstn_app_len (A := RNum)) by (rewrite map_length; auto). rewrite (skipn_app_len (A := RNum)) by (rewrite map_length; auto).
  apply zip_unzip.
Qed.
Lemma nth_update_coords q r : forall (cs : list crd) (z m : list R) k c zk b, length z = length cs -> length m = length cs ->
  nth_error cs k = Some c -> nth_error z k = Some zk -> nth_error m k = Some b ->
  nth_error (update_coords (N := RNum) q (repeat r (length cs)) cs z m) k = Some (coord_update (N := RNum) q r c zk b).
Proof.
  induction cs as [|c0 cs IH]; intros [|z0 z] [|m0 m] [|k] c zk b; cbn; intros Lz Lm Hc Hz Hb; try discriminate.
  - congruence.
  - apply IH; auto.
Qed.

(** One coordinate of the filter, run on its own measurements only. *)
Inductive cact := CPredict | CCorrect (z : R) (b : bool).
Definition coord_do (p : okf_params RNum) (c : crd) (a : cact) : crd :=
  match a with
  | CPredict => coord_predict (N := RNum) c
  | CCorrect z b => coord_update (N := RNum) (kp_Q p) (kp_R p * 1) c z (bit b)
  end.
Definition coord_start (p : okf_params RNum) (z : R) : crd :=
  MkCoord (N := RNum) z 0 (0 + kp_pos_variance p) (0 + kp_pos_vel_covariance p) (0 + kp_vel_variance p).
Definition proj (k : nat) (a : action) : cact :=
  match a with Predict => CPredict | Correct m => CCorrect (nth k (me_z m) 0) (nth k (me_mask m) false) end.

Record okf_inv (p : okf_params RNum) (d : nat) (f : okf RNum) : Prop := {
  oi_wf : okf_wf d f;
  oi_q : k_q f = kp_Q p;
  oi_r : k_default_r f = repeat (kp_R p * 1) d
}.

Lemma okf_do_inv p d f a : okf_inv p d f -> action_fits d a -> okf_inv p d (okf_do f a).
Proof.
  intros [W Q R] Fa. destruct a as [|m]; cbn.
  - split; auto. exact (rg_predict _ (okf_regular (N := RNum) p) d f W).
  - destruct Fa as [L1 L2]. split; auto. apply (rg_update _ (okf_regular (N := RNum) p) d f); auto. rewrite map_length. auto.
Qed.
Lemma okf_do_coord p d f a k c : okf_inv p d f -> action_fits d a -> nth_error (okf_coords f) k = Some c ->
  nth_error (okf_coords (okf_do f a)) k = Some (coord_do p c (proj k a)).
Proof.
  intros [W Q R] Fa Hc. pose proof (okf_coords_length _ _ W) as L.
  assert (Hk : (k < d)%nat) by (rewrite <- L; apply nth_error_Some; congruence).
  destruct a as [|m]; cbn [okf_do proj coord_do].
  - rewrite (predict_coords d) by auto. rewrite nth_error_map, Hc. reflexivity.
  - destruct Fa as [L1 L2]. rewrite (update_coords_eq d) by (auto; rewrite map_length; auto).
    rewrite Q, R. rewrite <- L at 1.
    apply (nth_update_coords (kp_Q p) (kp_R p * 1) (okf_coords f) (me_z m) (map bit (me_mask m)) k c); auto.
    + rewrite L. auto.
    + rewrite map_length, L. auto.
    + apply nth_error_nth'. rewrite L1. auto.
    + rewrite nth_error_map, (nth_error_nth' _ false) by (rewrite L2; auto). reflexivity.
Qed.

Lemma okf_start_inv p (z0 : points RNum) : okf_inv p (length (flatten z0)) (okf_create p z0).
Proof. split; try reflexivity. exact (rg_create _ (okf_regular (N := RNum) p) z0). Qed.

Lemma nth_zip_coords {N : Num} : forall (a b c d e : list N) k w x y z t, nth_error a k = Some w -> nth_error b k = Some x -> nth_error c k = Some y ->
  nth_error d k = Some z -> nth_error e k = Some t -> nth_error (zip_coords a b c d e) k = Some (MkCoord w x y z t).
Proof.
  induction a as [|w0 a IH]; intros [|x0 b] [|y0 c] [|z0 d] [|t0 e] [|k] w x y z t; cbn; intros; try discriminate; [congruence|]. apply IH; auto.
Qed.
Lemma okf_start_coord p (z0 : points RNum) k zk : nth_error (flatten z0) k = Some zk ->
  nth_error (okf_coords (okf_create p z0)) k = Some (coord_start p zk).
Proof.
  intros H. assert (Hk : (k < length (flatten z0))%nat) by (apply nth_error_Some; congruence).
  unfold okf_coords, okf_create. cbn [k_dim_z k_x k_pos_variance k_pos_vel_covariance k_vel_variance].
  rewrite (firstn_app_len (A := RNum)), (skipn_app_len (A := RNum)) by reflexivity.
  apply nth_zip_coords; auto; apply nth_error_repeat; auto.
Qed.

Lemma okf_acts_inv p z0 l : Forall (action_fits (length (flatten z0))) l -> okf_inv p (length (flatten z0)) (okf_acts p z0 l).
Proof.
  unfold okf_acts. pose proof (okf_start_inv p z0) as H. revert H. generalize (okf_create p z0) as f.
  induction l as [|a l IH]; intros f H Fl; cbn; auto. inversion Fl; subst. apply IH; auto. apply okf_do_inv; auto.
Qed.
(** Every coordinate runs by itself. *)
Lemma okf_projection p z0 l k zk : Forall (action_fits (length (flatten z0))) l -> nth_error (flatten z0) k = Some zk ->
  nth_error (okf_coords (okf_acts p z0 l)) k = Some (fold_left (coord_do p) (map (proj k) l) (coord_start p zk)).
Proof.
  intros Fl Hk. unfold okf_acts. pose proof (okf_start_inv p z0) as H. pose proof (okf_start_coord p z0 k zk Hk) as Hc.
  revert H Hc. generalize (okf_create p z0) as f, (coord_start p zk) as c.
  induction l as [|a l IH]; intros f c H Hc; cbn; auto. inversion Fl; subst.
  apply IH; auto; [apply okf_do_inv; auto|]. eapply okf_do_coord; eauto.
Qed.

Lemma coord_do_psd (p : okf_params RNum) c a : 0 <= kp_Q p -> 0 < kp_R p -> psd c -> psd (coord_do p c a).
Proof. intros Hq Hr H. destruct a as [|z b]; cbn; [exact H|]. apply coord_update_psd; auto. lra. Qed.
Lemma coord_do_pd (p : okf_params RNum) c a : 0 <= kp_Q p -> 0 < kp_R p -> pd c -> pd (coord_do p c a).
Proof. intros Hq Hr H. destruct a as [|z b]; cbn; [exact H|]. apply coord_update_pd; auto. lra. Qed.
Lemma coord_run_psd (p : okf_params RNum) l : forall c, 0 <= kp_Q p -> 0 < kp_R p -> psd c -> psd (fold_left (coord_do p) l c).
Proof. induction l as [|a l IH]; intros c Hq Hr H; cbn; auto. apply IH; auto. apply coord_do_psd; auto. Qed.
Lemma coord_run_pd (p : okf_params RNum) l : forall c, 0 <= kp_Q p -> 0 < kp_R p -> pd c -> pd (fold_left (coord_do p) l c).
Proof. induction l as [|a l IH]; intros c Hq Hr H; cbn; auto. apply IH; auto. apply coord_do_pd; auto. Qed.
Lemma start_psd_coord (p : okf_params RNum) z : start_psd p -> psd (coord_start p z).
Proof. intros (A & B & C). unfold psd. cbn. rewrite !Rplus_0_l. auto. Qed.
Lemma start_pd_coord (p : okf_params RNum) z : start_pd p -> pd (coord_start p z).
Proof. intros (A & B & C). unfold pd. cbn. rewrite !Rplus_0_l. auto. Qed.

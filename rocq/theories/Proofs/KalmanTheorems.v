(** C32-C34, C36 for the optimized filter and the facts C25, C26, C35 need about filterpy's filter. *)
From Coq Require Import QArith Reals Qreals Lra Lia Psatz Bool List Arith FunctionalExtensionality.
From Verif Require Import Model.Num Model.Base Model.Filter Model.KalmanMatrix Spec.KalmanSpec Spec.PointSpec.
From Verif Require Import Proofs.MatrixProofs Proofs.PointProofs Proofs.FilterTracker Proofs.RingNums Proofs.KalmanProofs.
Import ListNotations.
Local Open Scope R_scope.

Definition c0 : crd := MkCoord (N := RNum) 0 0 0 0 0.

(* ---- C32 ---- *)
Definition all_psd (f : okf RNum) : Prop := forall k c, nth_error (okf_coords f) k = Some c -> psd c.

Lemma like_ext d c c' s : (forall k, (k < d)%nat -> c k = c' k) -> like d c s -> like d c' s.
Proof.
  intros H [A B C]. split.
  - intros k Hk. rewrite A, H by auto. reflexivity.
  - intros k Hk. rewrite B, H by auto. reflexivity.
  - eapply meq_trans; [exact C|]. intros i j Hi Hj. apply blk_ext; auto. intros k Hk. rewrite H by auto. auto.
Qed.

Lemma scalar_meq d q : meq (2 * d) (2 * d) (scalar_mat q) (pos_vel_diag d q q).
Proof. intros i j _ _. apply scalar_pv. Qed.

Lemma step_like inv (p : okf_params RNum) d f s m : inverts_diagonal inv -> 0 <= kp_Q p -> 0 < kp_R p -> okf_inv p d f -> fits_dim d m ->
  all_psd f -> like d (fun k => nth k (okf_coords f) c0) s ->
  okf_inv p d (okf_step f m) /\ all_psd (okf_step f m) /\
  like d (fun k => nth k (okf_coords (okf_step f m)) c0) (textbook_step inv p d s m).
Proof.
  intros Hinv Hq Hr Hi Hm Hp HL. pose proof (okf_coords_length _ _ (oi_wf _ _ _ Hi)) as LC.
  assert (I1 : okf_inv p d (okf_predict f)) by (apply (okf_do_inv p d f Predict Hi I)).
  assert (I2 : okf_inv p d (okf_step f m)) by (apply (okf_do_inv p d _ (Correct m) I1 Hm)).
  assert (CO : forall k c, nth_error (okf_coords f) k = Some c ->
     nth_error (okf_coords (okf_step f m)) k = Some (coord_do p (coord_do p c CPredict) (proj k (Correct m)))).
  { intros k c Hc. apply (okf_do_coord p d (okf_predict f) (Correct m) k); auto. apply (okf_do_coord p d f Predict k c); auto. exact I. }
  split; [exact I2|]. split.
  - intros k c Hc. destruct (nth_error (okf_coords f) k) as [c1|] eqn:E.
    + rewrite (CO _ _ E) in Hc. injection Hc as <-. exact (coord_do_psd p _ (proj k (Correct m)) Hq Hr (coord_do_psd p c1 CPredict Hq Hr (Hp _ _ E))).
    + exfalso. apply nth_error_None in E. pose proof (okf_coords_length _ _ (oi_wf _ _ _ I2)) as L2.
      assert (k < length (okf_coords (okf_step f m)))%nat by (apply nth_error_Some; congruence). lia.
  - unfold textbook_step. destruct Hm as [L1 L2].
    pose proof (kf_predict_like d (kp_Q p) (kp_Q p) _ s (scalar_mat (kp_Q p)) (scalar_meq d _) HL) as HP.
    assert (Lm : length (map bit (me_mask m)) = d) by (rewrite map_length; auto).
    assert (B : forall k, (k < d)%nat -> nth k (map bit (me_mask m)) 0 = bit (nth k (me_mask m) false)).
    { intros k Hk. rewrite (nth_indep _ 0 (bit false)) by lia. apply map_nth. }
    assert (PS : forall k, (k < d)%nat -> psd (nth k (okf_coords f) c0)).
    { intros k Hk. apply (Hp k). apply nth_error_nth'. lia. }
    eapply like_ext; [|apply (kf_update_like d inv (kp_R p) _ _ (me_z m) (map bit (me_mask m)) Hinv Lm HP)].
    + intros k Hk. cbv beta. rewrite (B k Hk). symmetry. apply nth_error_nth.
      rewrite (CO k (nth k (okf_coords f) c0)).
      2:{ apply nth_error_nth'. lia. }
      f_equal. cbn [coord_do proj]. rewrite Rmult_1_r.
      apply coord_is_kalman; [lra|]. pose proof (psd_S (kp_Q p) (kp_R p) _ Hq Hr (PS k Hk)). lra.
    + intros k Hk. rewrite (B k Hk). pose proof (psd_pred (kp_Q p) _ Hq (PS k Hk)) as (X & _). cbv zeta in X. cbn.
      destruct (nth k (me_mask m) false); cbn; lra.
Qed.

Lemma start_like (p : okf_params RNum) (z0 : points RNum) : start_psd p ->
  all_psd (okf_create p z0) /\
  like (length (flatten z0)) (fun k => nth k (okf_coords (okf_create p z0)) c0) (textbook_start p (flatten z0)).
Proof.
  intros Hp. pose proof (okf_start_inv p z0) as HI. pose proof (okf_coords_length _ _ (oi_wf _ _ _ HI)) as LC.
  set (d := length (flatten z0)) in *.
  assert (CO : forall k, (k < d)%nat -> nth k (okf_coords (okf_create p z0)) c0 = coord_start p (nth k (flatten z0) 0)).
  { intros k Hk. apply nth_error_nth. apply okf_start_coord. apply nth_error_nth'. exact Hk. }
  split.
  - intros k c Hc. assert (Hk : (k < d)%nat) by (rewrite <- LC; apply nth_error_Some; congruence).
    rewrite (nth_error_nth' _ c0) in Hc by lia. rewrite CO in Hc by auto. injection Hc as <-. apply start_psd_coord; auto.
  - eapply like_ext; [intros k Hk; symmetry; apply CO; exact Hk|]. split.
    + intros k Hk. apply Nat.ltb_lt in Hk. exact (f_equal (fun b : bool => if b then nth k (flatten z0) 0 else 0) Hk).
    + intros k Hk. assert (X : Nat.ltb (k + d) d = false) by (apply Nat.ltb_ge; lia).
      exact (f_equal (fun b : bool => if b then nth (k + d) (flatten z0) 0 else 0) X).
    + intros i j Hi Hj. unfold textbook_start. cbn [kP]. set (e := length _).
      assert (Ee : e = d) by reflexivity. clearbody e. rewrite Ee. unfold blk, orb. cbn [coord_start c_pv c_cov c_vv]. rewrite !Rplus_0_l.
      cases; try lia; reflexivity.
Qed.

Lemma map_seq_shift {A} (g : nat -> A) d : forall n a, map g (seq (a + d) n) = map (fun k => g (k + d)%nat) (seq a n).
Proof. induction n as [|n IH]; intros a; cbn; auto. f_equal. exact (IH (S a)). Qed.

Theorem optimized_is_kalman inv (p : okf_params RNum) (z0 : points RNum) ms : inverts_diagonal inv ->
  0 < kp_R p -> 0 <= kp_Q p -> start_psd p -> Forall (fits_dim (length (flatten z0))) ms ->
  let d := length (flatten z0) in
  let f := okf_run p z0 ms in
  let s := textbook_run inv p (flatten z0) ms in
  k_x f = map (kx s) (seq 0 (2 * d)) /\
  k_pos_variance f = map (fun k => kP s k k) (seq 0 d) /\
  k_pos_vel_covariance f = map (fun k => kP s k (k + d)%nat) (seq 0 d) /\
  k_vel_variance f = map (fun k => kP s (k + d)%nat (k + d)%nat) (seq 0 d).
Proof.
  intros Hinv Hr Hq Hp Fm d f s.
  assert (X : okf_inv p d f /\ all_psd f /\ like d (fun k => nth k (okf_coords f) c0) s).
  { unfold f, s, okf_run, textbook_run. fold d. pose proof (okf_start_inv p z0) as H1. destruct (start_like p z0 Hp) as [H2 H3].
    fold d in H1, H3. fold d in Fm. revert H1 H2 H3. generalize (okf_create p z0) as f0, (textbook_start p (flatten z0)) as s0.
    induction ms as [|m ms IH]; intros f0 s0 H1 H2 H3; [auto|]. inversion Fm; subst. cbn [fold_left].
    destruct (step_like inv p d f0 s0 m Hinv Hq Hr H1 ltac:(auto) H2 H3) as (A & B & C). apply IH; auto. }
  destruct X as (HI & _ & [L1 L2 L3]). pose proof (okf_arrays _ _ (oi_wf _ _ _ HI)) as (A1 & A2 & A3 & A4 & LC). cbv zeta in *.
  assert (G : forall (g : crd -> R) (h : nat -> R), (forall k, (k < d)%nat -> h k = g (nth k (okf_coords f) c0)) ->
     map g (okf_coords f) = map h (seq 0 d)).
  { intros g h Hgh. apply nth_error_ext. intros k. rewrite !nth_error_map.
    destruct (lt_dec k d) as [Hk|Hk].
    - rewrite (nth_error_nth' _ c0) by lia. rewrite (nth_error_nth' (seq 0 d) 0%nat) by (rewrite seq_length; lia). rewrite seq_nth by lia.
      cbn. f_equal. symmetry. apply Hgh. auto.
    - rewrite (proj2 (nth_error_None _ _)) by lia. rewrite (proj2 (nth_error_None (seq 0 d) k)) by (rewrite seq_length; lia). reflexivity. }
  assert (BD : forall k, (k < d)%nat -> (k < 2 * d)%nat /\ (k + d < 2 * d)%nat) by (intros; lia).
  rewrite A1, A2, A3, A4. split; [|split; [|split]].
  - replace (2 * d)%nat with (d + d)%nat by lia. rewrite seq_app, map_app. cbn [Nat.add]. f_equal.
    + apply G. exact L1.
    + transitivity (map (fun k => kx s (k + d)%nat) (seq 0 d)).
      * apply G. exact L2.
      * symmetry. exact (map_seq_shift (kx s) d d 0).
  - apply G. intros k Hk. destruct (BD k Hk). rewrite L3, blk_00, Nat.eqb_refl by auto. reflexivity.
  - apply G. intros k Hk. destruct (BD k Hk). rewrite L3, blk_01, Nat.eqb_refl by auto. reflexivity.
  - apply G. intros k Hk. destruct (BD k Hk). rewrite L3, blk_11, Nat.eqb_refl by auto. reflexivity.
Qed.

(* ---- C33 ---- *)
Lemma nth_error_map_inv {A B} (g : A -> B) l k y : nth_error (map g l) k = Some y -> exists x, nth_error l k = Some x /\ y = g x.
Proof. rewrite nth_error_map. destruct (nth_error l k); cbn; [intros [= <-]; eauto|discriminate]. Qed.

Lemma okf_entries (p : okf_params RNum) (z0 : points RNum) l k : Forall (action_fits (length (flatten z0))) l -> (k < length (flatten z0))%nat ->
  let f := okf_acts p z0 l in
  let c := fold_left (coord_do p) (map (proj k) l) (coord_start p (nth k (flatten z0) 0)) in
  nth_error (k_x f) k = Some (c_pos c) /\ nth_error (k_x f) (k + length (flatten z0)) = Some (c_vel c) /\
  nth_error (k_pos_variance f) k = Some (c_pv c) /\ nth_error (k_pos_vel_covariance f) k = Some (c_cov c) /\
  nth_error (k_vel_variance f) k = Some (c_vv c).
Proof.
  intros Fl Hk f c. pose proof (okf_acts_inv p z0 l Fl) as HI. fold f in HI.
  pose proof (okf_projection p z0 l k (nth k (flatten z0) 0) Fl (nth_error_nth' _ _ Hk)) as HC. fold f c in HC.
  pose proof (okf_arrays _ _ (oi_wf _ _ _ HI)) as (A1 & A2 & A3 & A4 & LC). cbv zeta in *. rewrite A1, A2, A3, A4.
  rewrite nth_error_app1 by (rewrite map_length, LC; auto). rewrite nth_error_app2 by (rewrite map_length, LC; lia).
  rewrite map_length, LC. replace (k + length (flatten z0) - length (flatten z0))%nat with k by lia.
  rewrite !nth_error_map, HC. repeat split; reflexivity.
Qed.

Theorem variances_positive (p : okf_params RNum) (z0 : points RNum) l k : 0 < kp_R p -> 0 <= kp_Q p -> start_pd p ->
  Forall (action_fits (length (flatten z0))) l -> (k < length (flatten z0))%nat ->
  let f := okf_acts p z0 l in
  exists pv cov vv, nth_error (k_pos_variance f) k = Some pv /\ nth_error (k_pos_vel_covariance f) k = Some cov /\
    nth_error (k_vel_variance f) k = Some vv /\ 0 < pv /\ 0 < vv /\ cov * cov < pv * vv /\
    let S := pv + 2 * cov + vv + kp_Q p + kp_R p in 0 < S /\ 0 < 1 - kp_R p / S < 1.
Proof.
  intros Hr Hq Hp Fl Hk f. destruct (okf_entries p z0 l k Fl Hk) as (_ & _ & A & B & C). cbv zeta in *.
  set (c := fold_left (coord_do p) (map (proj k) l) (coord_start p (nth k (flatten z0) 0))) in *.
  assert (P : pd c) by (apply coord_run_pd; auto; apply start_pd_coord; auto).
  exists (c_pv c), (c_cov c), (c_vv c). pose proof (pd_S (kp_Q p) (kp_R p) c Hq Hr P) as HS. unfold S_of in HS. destruct P as (P1 & P2 & P3).
  repeat split; auto.
  - lra.
  - assert (0 < kp_R p / (c_pv c + 2 * c_cov c + c_vv c + kp_Q p + kp_R p) < 1); [|lra].
    split; [apply Rdiv_lt_0_compat; lra|]. apply (Rmult_lt_reg_r (c_pv c + 2 * c_cov c + c_vv c + kp_Q p + kp_R p)); [lra|].
    unfold Rdiv. rewrite Rmult_assoc, Rinv_l, Rmult_1_r, Rmult_1_l by lra. lra.
  - assert (0 < kp_R p / (c_pv c + 2 * c_cov c + c_vv c + kp_Q p + kp_R p)); [apply Rdiv_lt_0_compat; lra|lra].
Qed.

Theorem variances_nonnegative (p : okf_params RNum) (z0 : points RNum) l k : 0 < kp_R p -> 0 <= kp_Q p -> start_psd p ->
  Forall (action_fits (length (flatten z0))) l -> (k < length (flatten z0))%nat ->
  let f := okf_acts p z0 l in
  exists pv cov vv, nth_error (k_pos_variance f) k = Some pv /\ nth_error (k_pos_vel_covariance f) k = Some cov /\
    nth_error (k_vel_variance f) k = Some vv /\ 0 <= pv /\ 0 <= vv /\ cov * cov <= pv * vv /\
    let S := pv + 2 * cov + vv + kp_Q p + kp_R p in 0 < S /\ 0 <= 1 - kp_R p / S < 1.
Proof.
  intros Hr Hq Hp Fl Hk f. destruct (okf_entries p z0 l k Fl Hk) as (_ & _ & A & B & C). cbv zeta in *.
  set (c := fold_left (coord_do p) (map (proj k) l) (coord_start p (nth k (flatten z0) 0))) in *.
  assert (P : psd c) by (apply coord_run_psd; auto; apply start_psd_coord; auto).
  exists (c_pv c), (c_cov c), (c_vv c). pose proof (psd_S (kp_Q p) (kp_R p) c Hq Hr P) as HS. unfold S_of in HS. destruct P as (P1 & P2 & P3).
  repeat split; auto.
  - lra.
  - assert (kp_R p / (c_pv c + 2 * c_cov c + c_vv c + kp_Q p + kp_R p) <= 1); [|lra].
    apply (Rmult_le_reg_r (c_pv c + 2 * c_cov c + c_vv c + kp_Q p + kp_R p)); [lra|].
    unfold Rdiv. rewrite Rmult_assoc, Rinv_l, Rmult_1_r, Rmult_1_l by lra. lra.
  - assert (0 < kp_R p / (c_pv c + 2 * c_cov c + c_vv c + kp_Q p + kp_R p)); [apply Rdiv_lt_0_compat; lra|lra].
Qed.

(* ---- C34 ---- *)
Theorem between (p : okf_params RNum) (z0 : points RNum) l m k : 0 < kp_R p -> 0 <= kp_Q p -> start_pd p ->
  let d := length (flatten z0) in
  Forall (action_fits d) l -> fits_dim d m -> (k < d)%nat ->
  exists x v x' v' z b, nth_error (k_x (okf_acts p z0 l)) k = Some x /\ nth_error (k_x (okf_acts p z0 l)) (k + d) = Some v /\
    nth_error (k_x (okf_acts p z0 (l ++ [Correct m]))) k = Some x' /\ nth_error (k_x (okf_acts p z0 (l ++ [Correct m]))) (k + d) = Some v' /\
    nth_error (me_z m) k = Some z /\ nth_error (me_mask m) k = Some b /\
    if b then (x < z -> x < x' < z) /\ (z < x -> z < x' < x) /\ (x = z -> x' = x /\ v' = v) else x' = x /\ v' = v.
Proof.
  intros Hr Hq Hp d Fl Fm Hk. unfold d in *. clear d.
  assert (Fl' : Forall (action_fits (length (flatten z0))) (l ++ [Correct m])).
  { apply Forall_app. split; auto. }
  destruct (okf_entries p z0 l k Fl Hk) as (A & B & _). destruct (okf_entries p z0 _ k Fl' Hk) as (A' & B' & _). cbv zeta in *.
  rewrite map_app, fold_left_app in A', B'. cbn [map fold_left proj] in A', B'.
  set (c := fold_left (coord_do p) (map (proj k) l) (coord_start p (nth k (flatten z0) 0))) in *.
  assert (P : pd c) by (apply coord_run_pd; auto; apply start_pd_coord; auto).
  pose proof (pd_S (kp_Q p) (kp_R p) c Hq Hr P) as HS. unfold S_of in HS.
  destruct Fm as [L1 L2].
  exists (c_pos c), (c_vel c). eexists. eexists. exists (nth k (me_z m) 0), (nth k (me_mask m) false).
  split; [exact A|]. split; [exact B|]. split; [exact A'|]. split; [exact B'|].
  split; [apply nth_error_nth'; lia|]. split; [apply nth_error_nth'; lia|].
  destruct (nth k (me_mask m) false); cbn.
  - set (z := nth k (me_z m) 0) in *. destruct c as [x v pv cov vv]. cbn in *.
    set (g := kp_R p * 1 / (pv + cov + (cov + vv) + kp_Q p + kp_R p * 1)).
    assert (Hg : 0 < g < 1).
    { unfold g. rewrite Rmult_1_r. split; [apply Rdiv_lt_0_compat; lra|]. apply (Rmult_lt_reg_r (pv + cov + (cov + vv) + kp_Q p + kp_R p)); [lra|].
      unfold Rdiv. rewrite Rmult_assoc, Rinv_l, Rmult_1_r, Rmult_1_l by lra. lra. }
    split; [|split].
    + intros H. assert (0 < (1 - g) * (z - x)) by (apply Rmult_lt_0_compat; lra).
      assert (0 < g * (z - x)) by (apply Rmult_lt_0_compat; lra). lra.
    + intros H. assert (0 < (1 - g) * (x - z)) by (apply Rmult_lt_0_compat; lra).
      assert (0 < g * (x - z)) by (apply Rmult_lt_0_compat; lra). lra.
    + intros ->. split; ring.
  - split; ring.
Qed.

(* ---- C36 ---- *)
Definition shift_of (t : R) (c : crd) : crd := MkCoord (N := RNum) (c_pos c + t) (c_vel c) (c_pv c) (c_cov c) (c_vv c).

Lemma coord_update_shift q r c z t b : coord_update (N := RNum) q r (shift_of t c) (z + t) (bit b) = shift_of t (coord_update (N := RNum) q r c z (bit b)).
Proof.
  destruct c as [x v pv cov vv]. unfold shift_of, coord_update. cbn. f_equal; replace (z + t - (x + t)) with (z - x) by ring; ring.
Qed.

Theorem translation_equivariant (p : okf_params RNum) (z0 z0' : points RNum) l l' k t x :
  let d := length (flatten z0) in
  let d' := length (flatten z0') in
  Forall (action_fits d) l -> Forall (action_fits d') l' ->
  nth_error (flatten z0) k = Some x -> nth_error (flatten z0') k = Some (x + t) -> Forall2 (shifted k t) l l' ->
  exists y v, nth_error (k_x (okf_acts p z0 l)) k = Some y /\ nth_error (k_x (okf_acts p z0 l)) (k + d) = Some v /\
    nth_error (k_x (okf_acts p z0' l')) k = Some (y + t) /\ nth_error (k_x (okf_acts p z0' l')) (k + d') = Some v.
Proof.
  intros d d' Fl Fl' Hx Hx' Sh. unfold d, d' in *. clear d d'.
  assert (Hk : (k < length (flatten z0))%nat) by (apply nth_error_Some; congruence).
  assert (Hk' : (k < length (flatten z0'))%nat) by (apply nth_error_Some; congruence).
  destruct (okf_entries p z0 l k Fl Hk) as (A & B & _). destruct (okf_entries p z0' l' k Fl' Hk') as (A' & B' & _). cbv zeta in *.
  rewrite (nth_error_nth _ _ _ Hx) in A, B. rewrite (nth_error_nth _ _ _ Hx') in A', B'.
  assert (E : fold_left (coord_do p) (map (proj k) l') (coord_start p (x + t)) = shift_of t (fold_left (coord_do p) (map (proj k) l) (coord_start p x))).
  { change (coord_start p (x + t)) with (shift_of t (coord_start p x)). generalize (coord_start p x) as c.
    clear -Sh. induction Sh as [|a a' l l' Ha Sh IH]; intros c; cbn [map fold_left]; [reflexivity|].
    rewrite <- IH. f_equal. destruct Ha as [|m m' b M1 M2 Z]; cbn [proj coord_do].
    - unfold shift_of, coord_predict. cbn. f_equal. ring.
    - rewrite (nth_error_nth _ _ false M1), (nth_error_nth _ _ false M2). destruct b.
      + destruct (Z eq_refl) as (y & Z1 & Z2). rewrite (nth_error_nth _ _ 0 Z1), (nth_error_nth _ _ 0 Z2). apply coord_update_shift.
      + rewrite <- coord_update_shift. apply (coord_update_off RNum_ring). }
  rewrite E in A', B'. do 2 eexists. repeat split; eassumption.
Qed.

(* ---- filterpy's filter ---- *)
Definition qpsd (c : crd) : Prop := forall u w, 0 <= c_pv c * (u * u) + 2 * c_cov c * (u * w) + c_vv c * (w * w).

Definition fp_wf (p : fp_params) (d : nat) (f : fp_filter) : Prop :=
  fpf_dim_z f = d /\ fpf_params f = p /\ exists c, like d c (fpf_state f) /\ forall k, (k < d)%nat -> qpsd (c k).

Lemma qpsd_pv c : qpsd c -> 0 <= c_pv c.
Proof. intros H. specialize (H 1 0). lra. Qed.
Lemma c2_predict_qpsd qp qv c : 0 <= qp -> 0 <= qv -> qpsd c -> qpsd (c2_predict qp qv c).
Proof.
  intros A B H u w. specialize (H u (u + w)). cbn. pose proof (Rle_0_sqr u) as U. pose proof (Rle_0_sqr w) as W. unfold Rsqr in *.
  assert (0 <= qp * (u * u)) by (apply Rmult_le_pos; lra). assert (0 <= qv * (w * w)) by (apply Rmult_le_pos; lra). lra.
Qed.
Lemma c2_update_qpsd r c z m : 0 < r -> qpsd c -> qpsd (c2_update r c z m).
Proof.
  intros A H u w. unfold c2_update. cbn. set (s := / _). set (k1 := c_pv c * m * s). set (k2 := c_cov c * m * s).
  specialize (H ((1 - k1 * m) * u + (0 - k2 * m) * w) w).
  pose proof (Rle_0_sqr (k1 * u + k2 * w)) as U. unfold Rsqr in U.
  assert (0 <= r * ((k1 * u + k2 * w) * (k1 * u + k2 * w))) by (apply Rmult_le_pos; lra). lra.
Qed.
Lemma c2_S r c m : 0 < r -> qpsd c -> m * (c_pv c * m) + r <> 0.
Proof.
  intros Hr H. apply qpsd_pv in H. pose proof (Rle_0_sqr m) as U. unfold Rsqr in U.
  assert (0 <= c_pv c * (m * m)) by (apply Rmult_le_pos; lra). lra.
Qed.

Section FilterPy.
Variable inv : nat -> mat -> mat.
Variable p : fp_params.
Hypothesis Hinv : inverts_diagonal inv.
Hypothesis HR : 0 < fp_R p.
Hypothesis HQ : 0 <= fp_Q p.
Hypothesis HP : 0 <= fp_P p.

Lemma fp_regular : regular (fp_ops inv p) (fp_wf p).
Proof.
  split; cbn [f_create f_predict f_update f_x f_set_x fp_ops].
  - intros z. unfold fp_wf. cbn. split; [reflexivity|]. split; [reflexivity|].
    exists (fun k => MkCoord (N := RNum) (nth k (flatten (N := RNum) z) 0) 0 1 0 (fp_P p)). split; [split|].
    + intros k Hk. apply Nat.ltb_lt in Hk. exact (f_equal (fun b : bool => if b then nth k (flatten z) 0 else 0) Hk).
    + intros k Hk. assert (X : Nat.ltb (k + length (flatten z)) (length (flatten z)) = false) by (apply Nat.ltb_ge; lia).
      exact (f_equal (fun b : bool => if b then nth (k + length (flatten z)) (flatten z) 0 else 0) X).
    + cbn. intros i j Hi Hj. rewrite Q_blk by auto. reflexivity.
    + intros k Hk u w. cbn. pose proof (Rle_0_sqr u) as U. pose proof (Rle_0_sqr w) as W. unfold Rsqr in *.
      assert (0 <= fp_P p * (w * w)) by (apply Rmult_le_pos; lra). lra.
  - intros d f (<- & E & c & L & Q). unfold fp_wf. cbn. split; [reflexivity|]. split; [auto|].
    exists (fun k => c2_predict 1 (fp_Q (fpf_params f)) (c k)). split.
    + apply kf_predict_like; auto. intros i j _ _. reflexivity.
    + intros k Hk. apply c2_predict_qpsd; auto; [lra|]. rewrite E. auto.
  - intros d f z m (<- & E & c & L & Q) Lz Lm. unfold fp_wf. cbn. split; [reflexivity|]. split; [auto|].
    exists (fun k => c2_update (fp_R (fpf_params f)) (c k) (nth k z 0) (nth k m 0)). rewrite E. split.
    + apply kf_update_like; auto. intros k Hk. apply c2_S; auto.
    + intros k Hk. apply c2_update_qpsd; auto.
  - intros d f x (<- & E & c & L & Q) Lx. unfold fp_wf. cbn. split; [reflexivity|]. split; [auto|].
    exists (fun k => MkCoord (N := RNum) (nth k x 0) (nth (k + fpf_dim_z f) x 0) (c_pv (c k)) (c_cov (c k)) (c_vv (c k))). split.
    + split; cbn; auto. apply (lk_P _ _ _ L).
    + exact Q.
  - intros d f x (<- & _) Lx'. assert (Lx : @length R x = (2 * fpf_dim_z f)%nat) by exact Lx'. unfold fp_x, fp_set_x. cbn [fpf_state fpf_dim_z kx]. apply nth_error_ext. intros k.
    rewrite nth_error_map. destruct (lt_dec k (2 * fpf_dim_z f)) as [Hk|Hk].
    + rewrite (nth_error_nth' (seq 0 (2 * fpf_dim_z f)) 0%nat) by (rewrite seq_length; auto). rewrite seq_nth by auto. cbn [option_map Nat.add].
      symmetry. apply nth_error_nth'. rewrite Lx. auto.
    + rewrite (proj2 (nth_error_None (seq _ _) k)) by (rewrite seq_length; lia). symmetry. apply nth_error_None. rewrite Lx'. lia.
  - intros d f (<- & _). unfold fp_x. rewrite map_length, seq_length. reflexivity.
Qed.

Lemma x_at_rest d f (z : list R) : fp_wf p d f -> length z = d -> fp_x f = z ++ repeat 0 d ->
  (forall k, (k < d)%nat -> kx (fpf_state f) k = nth k z 0) /\ (forall k, (k < d)%nat -> kx (fpf_state f) (k + d)%nat = 0).
Proof.
  intros (<- & _) L E. set (d := fpf_dim_z f) in *.
  assert (G : forall k, (k < 2 * d)%nat -> kx (fpf_state f) k = nth k (z ++ repeat 0 d) 0).
  { intros k Hk. rewrite <- E. unfold fp_x. fold d. symmetry. apply nth_error_nth. rewrite nth_error_map.
    rewrite (nth_error_nth' (seq 0 (2 * d)) 0%nat) by (rewrite seq_length; auto). rewrite seq_nth by auto. reflexivity. }
  split; intros k Hk; rewrite G by lia.
  - apply app_nth1. lia.
  - rewrite app_nth2 by lia. apply nth_repeat.
Qed.
Lemma x_from_coords d f (z : list R) : fpf_dim_z f = d -> length z = d ->
  (forall k, (k < d)%nat -> kx (fpf_state f) k = nth k z 0) -> (forall k, (k < d)%nat -> kx (fpf_state f) (k + d)%nat = 0) ->
  fp_x f = z ++ repeat 0 d.
Proof.
  intros <- L A B. set (d := fpf_dim_z f) in *. unfold fp_x. fold d. apply nth_error_ext. intros k. rewrite nth_error_map.
  destruct (lt_dec k (2 * d)) as [Hk|Hk].
  - rewrite (nth_error_nth' (seq 0 (2 * d)) 0%nat) by (rewrite seq_length; auto). rewrite seq_nth by auto. cbn [option_map Nat.add].
    destruct (lt_dec k d) as [Hd|Hd].
    + rewrite nth_error_app1 by lia. rewrite A by auto. symmetry. apply nth_error_nth'. lia.
    + rewrite nth_error_app2 by lia. rewrite L. rewrite nth_error_repeat by lia. f_equal.
      replace k with (k - d + d)%nat by lia. apply B. lia.
  - rewrite (proj2 (nth_error_None (seq _ _) k)) by (rewrite seq_length; lia). symmetry. apply nth_error_None.
    rewrite app_length, repeat_length. lia.
Qed.

Lemma fp_steady : steady (fp_ops inv p) (fp_wf p).
Proof.
  split; cbn [f_create f_predict f_update f_x f_set_x fp_ops].
  - intros z. apply (x_from_coords (length (flatten z)) (fp_create p z) (flatten z)); try reflexivity; intros k Hk; cbn [fp_create fpf_state kx].
    + apply Nat.ltb_lt in Hk. exact (f_equal (fun b : bool => if b then nth k (flatten z) 0 else 0) Hk).
    + assert (X : Nat.ltb (k + length (flatten z)) (length (flatten z)) = false) by (apply Nat.ltb_ge; lia).
      exact (f_equal (fun b : bool => if b then nth (k + length (flatten z)) (flatten z) 0 else 0) X).
  - intros d f z W L E. destruct (x_at_rest d f z W L E) as [A B]. change (fp_x f = z ++ repeat 0 d) in E.
    rewrite E. pose proof (rg_predict _ fp_regular d f W) as W'. destruct W as (Hd & Hp & c & Lk & Q).
    pose proof (kf_predict_like d 1 (fp_Q p) c _ _ (fun i j _ _ => eq_refl) Lk) as L'.
    apply x_from_coords; auto.
    + intros k Hk. unfold fp_predict. cbn [fpf_state]. rewrite Hd, Hp, (lk_pos _ _ _ L') by auto. cbn [c2_predict c_pos].
      rewrite <- (lk_pos _ _ _ Lk), <- (lk_vel _ _ _ Lk), A, B by auto. lra.
    + intros k Hk. unfold fp_predict. cbn [fpf_state]. rewrite Hd, Hp, (lk_vel _ _ _ L') by auto. cbn [c2_predict c_vel].
      rewrite <- (lk_vel _ _ _ Lk), B by auto. reflexivity.
  - intros d f z m W L Lm E. destruct (x_at_rest d f z W L E) as [A B]. change (fp_x f = z ++ repeat 0 d) in E.
    rewrite E. destruct W as (Hd & Hp & c & Lk & Q). change (bits (N := RNum) m) with (map bit m).
    assert (Lb : length (map bit m) = d) by (rewrite map_length; auto).
    assert (MB : forall k, (k < d)%nat -> nth k (map bit m) 0 = 0 \/ nth k (map bit m) 0 = 1).
    { intros k Hk. assert (X : nth_error (map bit m) k = Some (bit (nth k m false))).
      { rewrite nth_error_map, (nth_error_nth' _ false) by lia. reflexivity. }
      rewrite (nth_error_nth _ _ 0 X). destruct (nth k m false); [right|left]; reflexivity. }
    pose proof (kf_update_like d inv (fp_R p) c _ z (map bit m) Hinv Lb Lk (fun k Hk => c2_S _ _ _ HR (Q k Hk))) as L'.
    apply x_from_coords; auto.
    + intros k Hk. unfold fp_update. cbn [fpf_state]. rewrite Hd, Hp, (lk_pos _ _ _ L') by auto. unfold c2_update. cbn [c_pos].
      rewrite <- (lk_pos _ _ _ Lk), A by auto. destruct (MB k Hk) as [-> | ->]; ring.
    + intros k Hk. unfold fp_update. cbn [fpf_state]. rewrite Hd, Hp, (lk_vel _ _ _ L') by auto. unfold c2_update. cbn [c_vel].
      rewrite <- (lk_vel _ _ _ Lk k Hk). rewrite <- (lk_pos _ _ _ Lk k Hk), (A k Hk), (B k Hk). destruct (MB k Hk) as [-> | ->]; ring.
Qed.

Lemma sum_single n k f : (k < n)%nat -> (forall i, (i < n)%nat -> i <> k -> f i = 0) -> sum n f = f k.
Proof.
  induction n as [|n IH]; intros Hk Hz; [lia|]. cbn. destruct (Nat.eq_dec k n) as [->|Hn].
  - assert (Z : sum n f = 0); [|lra]. clear IH Hk. assert (H : forall i, (i < n)%nat -> f i = 0) by (intros; apply Hz; lia). clear Hz.
    induction n as [|n IH]; cbn; auto. rewrite IH, H by (auto; intros; apply H; lia). lra.
  - rewrite IH, (Hz n) by (try lia; intros; apply Hz; lia). lra.
Qed.

Lemma fp_ignores : ignores_unmeasured (fp_ops inv p) (fp_wf p).
Proof.
  intros d f mask z z' (Hd & Hp & c & Lk & Q) Lm Lz Lz' Hz. cbn [f_update fp_ops]. change (bits (N := RNum) mask) with (map bit mask). unfold fp_update. rewrite Hd, Hp.
  f_equal. unfold kf_update.
  set (PHT := mmul (2 * d) (kP (fpf_state f)) (tr (mask_H (map bit mask)))).
  set (K := mmul d PHT (inv d _)).
  assert (HK : forall i k, (k < d)%nat -> nth k mask false = false -> K i k = 0).
  { intros i k Hk Hb.
    assert (B0 : nth k (map bit mask) 0 = 0).
    { assert (X : nth_error (map bit mask) k = Some 0).
      { rewrite nth_error_map, (nth_error_nth' _ false) by lia. rewrite Hb. reflexivity. }
      apply (nth_error_nth _ _ 0 X). }
    assert (PH0 : PHT i k = 0).
    { unfold PHT, mmul, tr, mask_H. rewrite (sum_single _ k); [rewrite Nat.eqb_refl, B0; ring|lia|].
      intros j Hj Hne. apply Nat.eqb_neq in Hne. rewrite Nat.eqb_sym, Hne. ring. }
    unfold K at 1. unfold mmul at 1. rewrite (sum_single _ k); [rewrite PH0; ring|lia|].
    intros j Hj Hne. rewrite (Hinv d).
    - apply Nat.eqb_neq in Hne. rewrite Hne. ring.
    - intros a b Ha Hb' Hab. unfold madd, scalar_mat. apply Nat.eqb_neq in Hab as Hab'. rewrite Hab'.
      enough (X : mmul (2 * d) (mask_H (map bit mask)) PHT a b = 0) by lra.
      unfold mmul at 1. rewrite (sum_single _ a); [|lia|].
      + assert (P0 : PHT a b = kP (fpf_state f) a b * mask_H (map bit mask) b b).
        { unfold PHT, mmul, tr. apply (sum_single _ b); [lia|]. intros j' Hj' Hne'. unfold mask_H.
          apply Nat.eqb_neq in Hne'. rewrite Nat.eqb_sym, Hne'. ring. }
        rewrite P0, (lk_P _ _ _ Lk) by lia. rewrite blk_00 by auto. rewrite Hab'. ring.
      + intros j' Hj' Hne'. unfold mask_H. apply Nat.eqb_neq in Hne'. rewrite Nat.eqb_sym, Hne'. ring.
    - intros a Ha. unfold madd, scalar_mat. rewrite Nat.eqb_refl.
      enough (X : mmul (2 * d) (mask_H (map bit mask)) PHT a a = nth a (map bit mask) 0 * (c_pv (c a) * nth a (map bit mask) 0)).
      { rewrite X. apply c2_S; auto. }
      unfold mmul at 1. rewrite (sum_single _ a); [|lia|].
      + assert (P0 : PHT a a = kP (fpf_state f) a a * mask_H (map bit mask) a a).
        { unfold PHT, mmul, tr. apply (sum_single _ a); [lia|]. intros j' Hj' Hne'. unfold mask_H.
          apply Nat.eqb_neq in Hne'. rewrite Nat.eqb_sym, Hne'. ring. }
        rewrite P0, (lk_P _ _ _ Lk) by lia. rewrite blk_00 by auto. unfold mask_H. rewrite Nat.eqb_refl. ring.
      + intros j' Hj' Hne'. unfold mask_H. apply Nat.eqb_neq in Hne'. rewrite Nat.eqb_sym, Hne'. ring.
    - auto.
    - auto. }
  f_equal. apply functional_extensionality. intros i. unfold vadd. f_equal. unfold mvec at 1 3. apply sum_ext. intros k Hk.
  destruct (nth k mask false) eqn:E.
  - unfold vsub. assert (X : nth_error z k = nth_error z' k) by (apply Hz; rewrite (nth_error_nth' _ false) by lia; congruence).
    rewrite (nth_error_nth' z 0), (nth_error_nth' z' 0) in X by lia. injection X as ->. reflexivity.
  - rewrite (HK i k Hk E). ring.
Qed.
End FilterPy.

(** [numpy.linalg.inv] restricted to what is needed here is not an empty notion. *)
Definition diag_inv (n : nat) (A : mat) : mat := fun i j => if Nat.eqb i j then / A i i else 0.
Lemma diag_inv_ok : inverts_diagonal diag_inv.
Proof. intros n A _ _ i j _ _. reflexivity. Qed.

(* ---- refutations ---- *)
Lemma Q2R_10 : Q2R 10 = 10. Proof. unfold Q2R. cbn. lra. Qed.
Lemma Q2R_4 : Q2R 4 = 4. Proof. unfold Q2R. cbn. lra. Qed.
Lemma Q2R_1 : Q2R 1 = 1. Proof. unfold Q2R. cbn. lra. Qed.
Lemma Q2R_0 : Q2R 0 = 0. Proof. unfold Q2R. cbn. lra. Qed.
Lemma Q2R_tenth : Q2R (1 # 10) = 1 / 10. Proof. unfold Q2R. cbn. lra. Qed.

Theorem missed_frame :
  let p := okf_default_params (N := RNum) in
  let l := [Predict; Predict; Correct (MkMeas [1] [true])] in
  exists inv, inverts_diagonal inv /\
  nth 0 (k_x (okf_acts p [[0]] l)) 0 = 111 / 151 /\
  kx (textbook_acts inv p [0] l) 0%nat = 143 / 183.
Proof.
  intros p l. exists diag_inv. split; [exact diag_inv_ok|]. subst l p. split.
  - cbn. rewrite ?Q2R_10, ?Q2R_4, ?Q2R_1, ?Q2R_0, ?Q2R_tenth. field.
  - cbn. unfold madd, mmul, mvec, vadd, vsub, tr, diag_inv, scalar_mat, mask_H, cv_F, mmul, madd, bit. cbn.
    rewrite ?Q2R_10, ?Q2R_4, ?Q2R_1, ?Q2R_0, ?Q2R_tenth. field.
Qed.

Theorem singular_start :
  let p : okf_params RNum := MkOkfParams (N := RNum) 1 0 1 (-1) 1 in
  start_psd p /\ 0 < kp_R p /\ 0 < kp_pos_variance p /\ 0 < kp_vel_variance p /\ 0 <= kp_Q p /\
  k_pos_variance (okf_acts p [[0]] [Predict; Correct (MkMeas [1] [true])]) = [0].
Proof.
  intros p. unfold start_psd, p. cbn. repeat split; try lra. f_equal. field.
Qed.

Theorem defaults_ok : let p := okf_default_params (N := RNum) in 0 < kp_R p /\ 0 <= kp_Q p /\ start_pd p /\ start_psd p.
Proof.
  intros p. unfold start_pd, start_psd, p. cbn. rewrite ?Q2R_10, ?Q2R_4, ?Q2R_1, ?Q2R_0, ?Q2R_tenth. repeat split; lra.
Qed.

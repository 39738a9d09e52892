(** C32 for arbitrary actions; C33, C34, C36 for filterpy's filter. *)
From Coq Require Import Reals Lra Lia Psatz Bool List Arith.
From Verif Require Import Model.Num Model.Base Model.Filter Model.KalmanMatrix Spec.KalmanSpec Spec.KalmanUseSpec Spec.PointSpec.
From Verif Require Import Proofs.MatrixProofs Proofs.PointProofs Proofs.FilterTracker Proofs.RingNums Proofs.KalmanProofs Proofs.KalmanTheorems.
Import ListNotations.
Local Open Scope R_scope.

(* ---- C32 ---- *)
Definition advanced (q : R) (c : crd) : crd :=
  MkCoord (N := RNum) (c_pos c) (c_vel c) (c_pv c + 2 * c_cov c + c_vv c + q) (c_cov c + c_vv c) (c_vv c + q).
Lemma coord_is_lagging q r (c : crd) z (b : bool) : r <> 0 -> S_of q r c <> 0 ->
  coord_update (N := RNum) q r c z (bit b) = c2_update r (advanced q c) z (bit b).
Proof.
  intros Hr HS. unfold S_of in HS. destruct c as [p v a b0 e]. cbn in HS. unfold coord_update, c2_update, advanced. cbn.
  assert (H1 : a + b0 + (b0 + e) + q + r <> 0) by lra. assert (H2 : a + 2 * b0 + e + q + r <> 0) by lra.
  destruct b; cbn; f_equal; field; repeat split; try lra; try assumption.
Qed.
Lemma do_like inv (p : okf_params RNum) d f s a : inverts_diagonal inv -> 0 <= kp_Q p -> 0 < kp_R p -> okf_inv p d f -> action_fits d a ->
  all_psd f -> like d (fun k => nth k (okf_coords f) c0) s ->
  okf_inv p d (okf_do f a) /\ all_psd (okf_do f a) /\ like d (fun k => nth k (okf_coords (okf_do f a)) c0) (lagging_do inv p d s a).
Proof.
  intros Hinv Hq Hr Hi Ha Hp HL. pose proof (okf_coords_length _ _ (oi_wf _ _ _ Hi)) as LC.
  assert (I2 : okf_inv p d (okf_do f a)) by (apply (okf_do_inv p d f a Hi Ha)).
  assert (CO : forall k c, nth_error (okf_coords f) k = Some c -> nth_error (okf_coords (okf_do f a)) k = Some (coord_do p c (proj k a))).
  { intros k c Hc. apply (okf_do_coord p d f a k); auto. }
  assert (CN : forall k, (k < d)%nat -> nth k (okf_coords (okf_do f a)) c0 = coord_do p (nth k (okf_coords f) c0) (proj k a)).
  { intros k Hk. apply nth_error_nth. apply CO. apply nth_error_nth'. lia. }
  split; [exact I2|]. split.
  - intros k c Hc. destruct (nth_error (okf_coords f) k) as [c1|] eqn:E.
    + rewrite (CO _ _ E) in Hc. injection Hc as <-. exact (coord_do_psd p _ (proj k a) Hq Hr (Hp _ _ E)).
    + exfalso. apply nth_error_None in E. pose proof (okf_coords_length _ _ (oi_wf _ _ _ I2)) as L2.
      assert (k < length (okf_coords (okf_do f a)))%nat by (apply nth_error_Some; congruence). lia.
  - pose proof (kf_predict_like d (kp_Q p) (kp_Q p) _ s (scalar_mat (kp_Q p)) (scalar_meq d _) HL) as HP.
    eapply like_ext; [intros k Hk; symmetry; apply CN, Hk|]. destruct a as [|m].
    + cbn [lagging_do proj coord_do]. split; cbn [kx kP].
      * intros k Hk. rewrite (lk_pos _ _ _ HP k Hk). reflexivity.
      * intros k Hk. rewrite (lk_vel _ _ _ HP k Hk). reflexivity.
      * apply (lk_P _ _ _ HL).
    + cbn [lagging_do]. destruct Ha as [L1 L2].
      assert (HA : like d (fun k => advanced (kp_Q p) (nth k (okf_coords f) c0)) {| kx := kx s; kP := kP (kf_predict (2 * d) (cv_F d) (scalar_mat (kp_Q p)) s) |}).
      { split; cbn [kx kP]; [apply (lk_pos _ _ _ HL)|apply (lk_vel _ _ _ HL)|apply (lk_P _ _ _ HP)]. }
      assert (Lm : length (map bit (me_mask m)) = d) by (rewrite map_length; auto).
      assert (B : forall k, (k < d)%nat -> nth k (map bit (me_mask m)) 0 = bit (nth k (me_mask m) false)).
      { intros k Hk. rewrite (nth_indep _ 0 (bit false)) by lia. apply map_nth. }
      assert (PS : forall k, (k < d)%nat -> psd (nth k (okf_coords f) c0)).
      { intros k Hk. apply (Hp k). apply nth_error_nth'. lia. }
      eapply like_ext; [|apply (kf_update_like d inv (kp_R p) _ _ (me_z m) (map bit (me_mask m)) Hinv Lm HA)].
      * intros k Hk. cbv beta. rewrite (B k Hk). cbn [coord_do proj]. rewrite Rmult_1_r. symmetry.
        apply coord_is_lagging; [lra|]. pose proof (psd_S (kp_Q p) (kp_R p) _ Hq Hr (PS k Hk)). lra.
      * intros k Hk. rewrite (B k Hk). pose proof (psd_pred (kp_Q p) _ Hq (PS k Hk)) as (X & _). cbv zeta in X. cbn.
        destruct (nth k (me_mask m) false); cbn; lra.
Qed.
Theorem optimized_is_lagging inv (p : okf_params RNum) (z0 : points RNum) l : inverts_diagonal inv ->
  0 < kp_R p -> 0 <= kp_Q p -> start_psd p -> Forall (action_fits (length (flatten z0))) l ->
  let d := length (flatten z0) in
  let f := okf_acts p z0 l in
  let s := lagging_acts inv p (flatten z0) l in
  k_x f = map (kx s) (seq 0 (2 * d)) /\
  k_pos_variance f = map (fun k => kP s k k) (seq 0 d) /\
  k_pos_vel_covariance f = map (fun k => kP s k (k + d)%nat) (seq 0 d) /\
  k_vel_variance f = map (fun k => kP s (k + d)%nat (k + d)%nat) (seq 0 d).
Proof.
  intros Hinv Hr Hq Hp Fm d f s.
  assert (X : okf_inv p d f /\ all_psd f /\ like d (fun k => nth k (okf_coords f) c0) s).
  { unfold f, s, okf_acts, lagging_acts. fold d. pose proof (okf_start_inv p z0) as H1. destruct (start_like p z0 Hp) as [H2 H3].
    fold d in H1, H3. fold d in Fm. revert H1 H2 H3. generalize (okf_create p z0) as f0, (textbook_start p (flatten z0)) as s0.
    induction l as [|a l IH]; intros f0 s0 H1 H2 H3; [auto|]. inversion Fm; subst. cbn [fold_left].
    destruct (do_like inv p d f0 s0 a Hinv Hq Hr H1 ltac:(auto) H2 H3) as (A & B & C). apply IH; auto. }
  destruct X as (HI & _ & [L1 L2 L3]). pose proof (okf_arrays _ _ (oi_wf _ _ _ HI)) as (A1 & A2 & A3 & A4 & LC). cbv zeta in *.
  assert (G : forall (g : crd -> R) (h : nat -> R), (forall k, (k < d)%nat -> h k = g (nth k (okf_coords f) c0)) ->
     map g (okf_coords f) = map h (seq 0 d)).
  { intros g h Hgh. apply nth_error_ext. intros k. rewrite !nth_error_map.
    destruct (lt_dec k d) as [Hk|Hk].
    - rewrite (nth_error_nth' _ c0) by lia. rewrite (nth_error_nth' (seq 0 d) 0%nat) by (rewrite seq_length; lia). rewrite seq_nth by lia.
      cbn. f_equal. symmetry. apply Hgh. auto.
    - rewrite (proj2 (nth_error_None _ _)) by lia. rewrite (proj2 (nth_error_None (seq 0 d) k)) by (rewrite seq_length; lia). reflexivity. }
  assert (BD : forall k, (k < d)%nat -> (k < 2 * d)%nat /\ (k + d < 2 * d)%nat) by (intros; lia).
  rewrite A1, A2, A3, A4. split; [|split; [|split]].
  - replace (2 * d)%nat with (d + d)%nat by lia. rewrite seq_app, map_app. cbn [Nat.add]. f_equal.
    + apply G. exact L1.
    + transitivity (map (fun k => kx s (k + d)%nat) (seq 0 d)).
      * apply G. exact L2.
      * symmetry. exact (map_seq_shift (kx s) d d 0).
  - apply G. intros k Hk. destruct (BD k Hk). rewrite L3, blk_00, Nat.eqb_refl by auto. reflexivity.
  - apply G. intros k Hk. destruct (BD k Hk). rewrite L3, blk_01, Nat.eqb_refl by auto. reflexivity.
  - apply G. intros k Hk. destruct (BD k Hk). rewrite L3, blk_11, Nat.eqb_refl by auto. reflexivity.
Qed.

(* ---- filterpy ---- *)
Definition fcoord_do (p : fp_params) (c : crd) (a : cact) : crd :=
  match a with CPredict => c2_predict 1 (fp_Q p) c | CCorrect z b => c2_update (fp_R p) c z (bit b) end.
Definition fcoord_start (p : fp_params) (z : R) : crd := MkCoord (N := RNum) z 0 1 0 (fp_P p).

Lemma c2_predict_pd qp qv (c : crd) : 0 <= qp -> 0 <= qv -> pd c -> pd (c2_predict qp qv c).
Proof.
  intros A B H. pose proof (pd_diag _ H) as D. destruct H as (P1 & P2 & P3). unfold pd, c2_predict. cbn. repeat split; try lra.
  set (a := c_pv c) in *. set (h := c_cov c) in *. set (e := c_vv c) in *.
  assert (X : (a + 2 * h + e + qp) * (e + qv) - (h + e) * (h + e) = (a * e - h * h) + qp * e + qv * (a + 2 * h + e) + qp * qv) by ring.
  assert (0 <= qp * e) by (apply Rmult_le_pos; lra). assert (0 <= qv * (a + 2 * h + e)) by (apply Rmult_le_pos; lra). assert (0 <= qp * qv) by (apply Rmult_le_pos; lra). lra.
Qed.
Lemma c2_update_closed r (c : crd) z (b : bool) : 0 < r -> 0 <= c_pv c ->
  c2_update r c z (bit b) = if b then MkCoord (N := RNum) (c_pos c + c_pv c / (c_pv c + r) * (z - c_pos c)) (c_vel c + c_cov c / (c_pv c + r) * (z - c_pos c))
     (c_pv c * r / (c_pv c + r)) (c_cov c * r / (c_pv c + r)) (c_vv c - c_cov c * c_cov c / (c_pv c + r)) else c.
Proof.
  intros Hr Hp. destruct c as [x v pv cov vv]. cbn in *. unfold c2_update. cbn. destruct b; cbn; f_equal; field; lra.
Qed.
Lemma c2_update_pd r c z (b : bool) : 0 < r -> pd c -> pd (c2_update r c z (bit b)).
Proof.
  intros Hr H. rewrite c2_update_closed by (auto; destruct H; lra). destruct b; auto. destruct H as (A & B & C). unfold pd. cbn.
  set (a := c_pv c) in *. set (h := c_cov c) in *. set (e := c_vv c) in *. assert (0 < a + r) by lra. assert (I : 0 < / (a + r)) by (apply Rinv_0_lt_compat; lra).
  assert (P1 : 0 < a * r / (a + r)) by (apply Rmult_lt_0_compat; [apply Rmult_lt_0_compat; lra|lra]).
  assert (E : (e - h * h / (a + r)) = ((a * e - h * h) + r * e) * / (a + r)) by (field; lra).
  assert (0 < r * e) by (apply Rmult_lt_0_compat; lra).
  assert (P2 : 0 < e - h * h / (a + r)) by (rewrite E; apply Rmult_lt_0_compat; lra).
  repeat split; auto. 
  assert (X : a * r / (a + r) * (e - h * h / (a + r)) - h * r / (a + r) * (h * r / (a + r)) = r * (a * e - h * h) * / (a + r)) by (field; lra).
  assert (0 < r * (a * e - h * h) * / (a + r)) by (apply Rmult_lt_0_compat; [apply Rmult_lt_0_compat; lra|lra]). lra.
Qed.
Lemma fcoord_do_pd p c a : 0 <= fp_Q p -> 0 < fp_R p -> pd c -> pd (fcoord_do p c a).
Proof. intros A B H. destruct a; cbn; [apply c2_predict_pd; auto; lra|apply c2_update_pd; auto]. Qed.
Lemma fcoord_run_pd p l : forall c, 0 <= fp_Q p -> 0 < fp_R p -> pd c -> pd (fold_left (fcoord_do p) l c).
Proof. induction l as [|a l IH]; intros c Hq Hr H; cbn; auto. apply IH; auto. apply fcoord_do_pd; auto. Qed.
Lemma fcoord_do_qpsd p c a : 0 <= fp_Q p -> 0 < fp_R p -> qpsd c -> qpsd (fcoord_do p c a).
Proof. intros A B H. destruct a; cbn; [apply c2_predict_qpsd; auto; lra|apply c2_update_qpsd; auto]. Qed.
Lemma fcoord_start_qpsd p z : 0 <= fp_P p -> qpsd (fcoord_start p z).
Proof.
  intros HP u w. cbn. pose proof (Rle_0_sqr u) as U. pose proof (Rle_0_sqr w) as W. unfold Rsqr in *.
  assert (0 <= fp_P p * (w * w)) by (apply Rmult_le_pos; lra). lra.
Qed.

Section FP.
Variable inv : nat -> mat -> mat.
Variable p : fp_params.
Hypothesis Hinv : inverts_diagonal inv.
Hypothesis HR : 0 < fp_R p.
Hypothesis HQ : 0 <= fp_Q p.
Hypothesis HP : 0 <= fp_P p.

Lemma fp_do_like d f a c : fpf_dim_z f = d -> fpf_params f = p -> action_fits d a -> like d c (fpf_state f) -> (forall k, (k < d)%nat -> qpsd (c k)) ->
  fpf_dim_z (fp_do inv f a) = d /\ fpf_params (fp_do inv f a) = p /\ like d (fun k => fcoord_do p (c k) (proj k a)) (fpf_state (fp_do inv f a)) /\
  (forall k, (k < d)%nat -> qpsd (fcoord_do p (c k) (proj k a))).
Proof.
  intros <- E Fa L Q. split; [destruct a; reflexivity|]. split; [destruct a; exact E|]. split; [|intros k Hk; apply fcoord_do_qpsd; auto].
  destruct a as [|m]; cbn [fp_do fp_predict fp_update fpf_state fcoord_do proj].
  - rewrite E. apply kf_predict_like; auto. intros i j _ _. reflexivity.
  - destruct Fa as [L1 L2]. rewrite E. assert (Lm : length (map bit (me_mask m)) = fpf_dim_z f) by (rewrite map_length; auto).
    assert (B : forall k, (k < fpf_dim_z f)%nat -> nth k (map bit (me_mask m)) 0 = bit (nth k (me_mask m) false)).
    { intros k Hk. rewrite (nth_indep _ 0 (bit false)) by lia. apply map_nth. }
    eapply like_ext; [|apply (kf_update_like (fpf_dim_z f) inv (fp_R p) c _ (me_z m) (map bit (me_mask m)) Hinv Lm L)].
    + intros k Hk. cbv beta. rewrite (B k Hk). reflexivity.
    + intros k Hk. apply c2_S; auto.
Qed.
Lemma fp_fold_like d l : forall f c, Forall (action_fits d) l -> fpf_dim_z f = d -> fpf_params f = p -> like d c (fpf_state f) ->
  (forall k, (k < d)%nat -> qpsd (c k)) -> fpf_dim_z (fold_left (fp_do inv) l f) = d /\
  like d (fun k => fold_left (fcoord_do p) (map (proj k) l) (c k)) (fpf_state (fold_left (fp_do inv) l f)).
Proof.
  induction l as [|a l IH]; intros f c Fl A B C D; cbn [fold_left map]; [split; [exact A|exact C]|]. inversion Fl as [|? ? Fa Fr].
  destruct (fp_do_like d f a c A B Fa C D) as (A' & B' & C' & D'). exact (IH _ _ Fr A' B' C' D').
Qed.
Lemma fp_acts_like (z0 : points RNum) l : let d := length (flatten z0) in Forall (action_fits d) l ->
  fpf_dim_z (fp_acts inv p z0 l) = d /\
  like d (fun k => fold_left (fcoord_do p) (map (proj k) l) (fcoord_start p (nth k (flatten z0) 0))) (fpf_state (fp_acts inv p z0 l)).
Proof.
  intros d Fl. unfold fp_acts.
  assert (S0 : fpf_dim_z (fp_create p z0) = d /\ fpf_params (fp_create p z0) = p /\ like d (fun k => fcoord_start p (nth k (flatten z0) 0)) (fpf_state (fp_create p z0)) /\
     (forall k, (k < d)%nat -> qpsd (fcoord_start p (nth k (flatten z0) 0)))).
  { split; [reflexivity|]. split; [reflexivity|]. split; [|intros k _; apply fcoord_start_qpsd; auto]. split.
    - intros k Hk. apply Nat.ltb_lt in Hk. exact (f_equal (fun b : bool => if b then nth k (flatten z0) 0 else 0) Hk).
    - intros k Hk. assert (X : Nat.ltb (k + d) d = false) by (apply Nat.ltb_ge; lia).
      exact (f_equal (fun b : bool => if b then nth (k + d) (flatten z0) 0 else 0) X).
    - intros i j Hi Hj. cbn [fp_create fpf_state kP]. change (pos_vel_diag d 1 (fp_P p) i j = blk d (fun _ => 1) (fun _ => 0) (fun _ => 0) (fun _ => fp_P p) i j).
      rewrite Q_blk by auto. reflexivity. }
  destruct S0 as (A & B & C & D). destruct (fp_fold_like d l (fp_create p z0) _ Fl A B C D) as [X Y]. split; [exact X|exact Y].
Qed.
Lemma fp_entries (z0 : points RNum) l k : let d := length (flatten z0) in Forall (action_fits d) l -> (k < d)%nat ->
  let f := fp_acts inv p z0 l in
  let c := fold_left (fcoord_do p) (map (proj k) l) (fcoord_start p (nth k (flatten z0) 0)) in
  nth_error (fp_x f) k = Some (c_pos c) /\ nth_error (fp_x f) (k + d) = Some (c_vel c).
Proof.
  intros d Fl Hk f c. destruct (fp_acts_like z0 l Fl) as [A L]. fold f in A, L. fold d in A, L. unfold fp_x. rewrite A, !nth_error_map.
  rewrite !(nth_error_nth' (seq 0 (2 * d)) 0%nat) by (rewrite seq_length; lia). rewrite !seq_nth by lia. cbn [option_map Nat.add].
  rewrite (lk_pos _ _ _ L k Hk), (lk_vel _ _ _ L k Hk). split; reflexivity.
Qed.

Theorem fp_translation (z0 z0' : points RNum) l l' k t x :
  let d := length (flatten z0) in
  let d' := length (flatten z0') in
  Forall (action_fits d) l -> Forall (action_fits d') l' ->
  nth_error (flatten z0) k = Some x -> nth_error (flatten z0') k = Some (x + t) -> Forall2 (shifted k t) l l' ->
  exists y v, nth_error (fp_x (fp_acts inv p z0 l)) k = Some y /\ nth_error (fp_x (fp_acts inv p z0 l)) (k + d) = Some v /\
    nth_error (fp_x (fp_acts inv p z0' l')) k = Some (y + t) /\ nth_error (fp_x (fp_acts inv p z0' l')) (k + d') = Some v.
Proof.
  intros d d' Fl Fl' Hx Hx' Sh. unfold d, d' in *. clear d d'.
  assert (Hk : (k < length (flatten z0))%nat) by (apply nth_error_Some; congruence).
  assert (Hk' : (k < length (flatten z0'))%nat) by (apply nth_error_Some; congruence).
  destruct (fp_entries z0 l k Fl Hk) as (A & B). destruct (fp_entries z0' l' k Fl' Hk') as (A' & B'). cbv zeta in *.
  rewrite (nth_error_nth _ _ _ Hx) in A, B. rewrite (nth_error_nth _ _ _ Hx') in A', B'.
  assert (E : fold_left (fcoord_do p) (map (proj k) l') (fcoord_start p (x + t)) = shift_of t (fold_left (fcoord_do p) (map (proj k) l) (fcoord_start p x))).
  { change (fcoord_start p (x + t)) with (shift_of t (fcoord_start p x)). pose proof (fcoord_start_qpsd p x HP) as Q0. revert Q0. generalize (fcoord_start p x) as c.
    clear -Sh HR HQ. induction Sh as [|a a' l l' Ha Sh IH]; intros c Qc; cbn [map fold_left]; [reflexivity|].
    rewrite <- IH by (apply fcoord_do_qpsd; auto). f_equal. destruct Ha as [|m m' b M1 M2 Z]; cbn [proj fcoord_do].
    - unfold shift_of, c2_predict. cbn. f_equal. ring.
    - pose proof (qpsd_pv _ Qc) as Pv. rewrite !c2_update_closed by (cbn; auto).
      rewrite (nth_error_nth _ _ false M1), (nth_error_nth _ _ false M2). destruct b; [|reflexivity].
      destruct (Z eq_refl) as (y & Z1 & Z2). rewrite (nth_error_nth _ _ 0 Z1), (nth_error_nth _ _ 0 Z2). unfold shift_of. cbn.
      replace (y + t - (c_pos c + t)) with (y - c_pos c) by ring. f_equal. ring. }
  rewrite E in A', B'. do 2 eexists. repeat split; eassumption.
Qed.

Hypothesis HP' : 0 < fp_P p.
Lemma fstart_pd z : pd (fcoord_start p z).
Proof. unfold pd. cbn. repeat split; lra. Qed.
Theorem fp_variances (z0 : points RNum) l : let d := length (flatten z0) in Forall (action_fits d) l ->
  let P := kP (fpf_state (fp_acts inv p z0 l)) in
  (forall k, (k < d)%nat -> 0 < P k k /\ 0 < P (k + d)%nat (k + d)%nat /\ P k (k + d)%nat = P (k + d)%nat k /\
    P k (k + d)%nat * P k (k + d)%nat < P k k * P (k + d)%nat (k + d)%nat /\ 0 < P k k / (P k k + fp_R p) < 1) /\
  (forall i j, (i < 2 * d)%nat -> (j < 2 * d)%nat -> i <> j -> i <> (j + d)%nat -> j <> (i + d)%nat -> P i j = 0).
Proof.
  intros d Fl P. destruct (fp_acts_like z0 l Fl) as [A L]. fold d in L. pose proof (lk_P _ _ _ L) as LP. fold P in LP. split.
  - intros k Hk. set (c := fold_left (fcoord_do p) (map (proj k) l) (fcoord_start p (nth k (flatten z0) 0))).
    assert (D : pd c) by (apply fcoord_run_pd; auto; apply fstart_pd).
    assert (B1 : (k < 2 * d)%nat) by lia. assert (B2 : (k + d < 2 * d)%nat) by lia.
    assert (E1 : P k k = c_pv c) by (rewrite LP, blk_00, Nat.eqb_refl by auto; reflexivity).
    assert (E2 : P k (k + d)%nat = c_cov c) by (rewrite LP, blk_01, Nat.eqb_refl by auto; reflexivity).
    assert (E3 : P (k + d)%nat k = c_cov c) by (rewrite LP, blk_10, Nat.eqb_refl by auto; reflexivity).
    assert (E4 : P (k + d)%nat (k + d)%nat = c_vv c) by (rewrite LP, blk_11, Nat.eqb_refl by auto; reflexivity).
    rewrite E1, E2, E3, E4. destruct D as (D1 & D2 & D3). repeat split; auto.
    + apply Rdiv_lt_0_compat; lra.
    + apply (Rmult_lt_reg_r (c_pv c + fp_R p)); [lra|]. unfold Rdiv. rewrite Rmult_assoc, Rinv_l, Rmult_1_r, Rmult_1_l by lra. lra.
  - intros i j Hi Hj N1 N2 N3. rewrite LP by auto. unfold blk. cases; try lia; reflexivity.
Qed.
Theorem fp_between (z0 : points RNum) l m k :
  let d := length (flatten z0) in
  Forall (action_fits d) l -> fits_dim d m -> (k < d)%nat ->
  exists x v x' v' z b, nth_error (fp_x (fp_acts inv p z0 l)) k = Some x /\ nth_error (fp_x (fp_acts inv p z0 l)) (k + d) = Some v /\
    nth_error (fp_x (fp_acts inv p z0 (l ++ [Correct m]))) k = Some x' /\ nth_error (fp_x (fp_acts inv p z0 (l ++ [Correct m]))) (k + d) = Some v' /\
    nth_error (me_z m) k = Some z /\ nth_error (me_mask m) k = Some b /\
    if b then (x < z -> x < x' < z) /\ (z < x -> z < x' < x) /\ (x = z -> x' = x /\ v' = v) else x' = x /\ v' = v.
Proof.
  intros d Fl Fm Hk.
  assert (Fl' : Forall (action_fits d) (l ++ [Correct m])) by (apply Forall_app; split; auto).
  destruct (fp_entries z0 l k Fl Hk) as (A & B). destruct (fp_entries z0 _ k Fl' Hk) as (A' & B'). cbv zeta in *. fold d in A, B, A', B'.
  rewrite map_app, fold_left_app in A', B'. cbn [map fold_left proj] in A', B'.
  set (c := fold_left (fcoord_do p) (map (proj k) l) (fcoord_start p (nth k (flatten z0) 0))) in *.
  assert (P : pd c) by (apply fcoord_run_pd; auto; apply fstart_pd). destruct P as (P1 & _).
  cbn [fcoord_do] in A', B'. rewrite c2_update_closed in A', B' by (auto; lra).
  destruct Fm as [L1 L2]. set (z := nth k (me_z m) 0) in *. set (b := nth k (me_mask m) false) in *.
  do 4 eexists. exists z, b. split; [exact A|]. split; [exact B|]. split; [exact A'|]. split; [exact B'|].
  split; [apply nth_error_nth'; lia|]. split; [apply nth_error_nth'; lia|].
  destruct b; cbn; [|auto]. set (g := c_pv c / (c_pv c + fp_R p)).
  assert (Hg : 0 < g < 1).
  { unfold g. split; [apply Rdiv_lt_0_compat; lra|]. apply (Rmult_lt_reg_r (c_pv c + fp_R p)); [lra|].
    unfold Rdiv. rewrite Rmult_assoc, Rinv_l, Rmult_1_r, Rmult_1_l by lra. lra. }
  split; [|split].
  - intros H. assert (0 < (1 - g) * (z - c_pos c)) by (apply Rmult_lt_0_compat; lra). assert (0 < g * (z - c_pos c)) by (apply Rmult_lt_0_compat; lra). lra.
  - intros H. assert (0 < (1 - g) * (c_pos c - z)) by (apply Rmult_lt_0_compat; lra). assert (0 < g * (c_pos c - z)) by (apply Rmult_lt_0_compat; lra). lra.
  - intros ->. split; ring.
Qed.
End FP.

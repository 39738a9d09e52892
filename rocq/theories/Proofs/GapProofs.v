(** C96: the error of the Kalman filter for a coordinate with constant velocity that is not measured in every call. *)
From Coq Require Import Reals Lra Lia Psatz Bool List Arith.
From Verif Require Import Model.Num Model.Base Model.Filter Model.KalmanMatrix Spec.KalmanSpec Spec.PointSpec Spec.FollowSpec Spec.GapSpec.
From Verif Require Import Proofs.MatrixProofs Proofs.PointProofs Proofs.FilterTracker Proofs.KalmanProofs Proofs.KalmanTheorems Proofs.FollowProofs Proofs.FollowFilters.
Import ListNotations.
Local Open Scope R_scope.

(** Several predictions in a row. *)
Section Jump.
Variables qp qv r : R.
Hypothesis Hqp : 0 <= qp.
Hypothesis Hqv : 0 <= qv.
Hypothesis Hr : 0 < r.
Notation e_pred := (e_pred qp qv).
Notation e_corr := (e_corr r).
Fixpoint jump (j : nat) (x : err) : err := match j with O => x | S j => e_pred (jump j x) end.
Lemma jump_closed j x : let g := INR j in jump j x =
  MkErr (e1 x + g * e2 x) (e2 x) (ea x + 2 * g * eb x + g * g * ed x + g * qp + g * (g - 1) * (2 * g - 1) / 6 * qv)
    (eb x + g * ed x + g * (g - 1) / 2 * qv) (ed x + g * qv).
Proof.
  cbv zeta. induction j as [|j IH].
  - destruct x. cbn. f_equal; field.
  - cbn [jump]. rewrite IH, S_INR. unfold FollowProofs.e_pred. cbn [e1 e2 ea eb ed]. f_equal; field.
Qed.
Lemma V_jump j x : epd x -> epd (jump j x) /\ V (jump j x) <= V x.
Proof.
  intros P. induction j as [|j [A B]]; [split; [exact P|apply Rle_refl]|]. cbn [jump]. destruct (V_pred qp qv Hqp Hqv _ A) as [C D]. split; [exact C|lra].
Qed.
Lemma corr_ea y : epd y -> ea (e_corr y) <= r.
Proof.
  intros (A & _). unfold FollowProofs.e_corr. cbn [ea]. replace r with (r / 1) at 3 by field. apply div_le; [lra|lra|]. pose proof (Rle_0_sqr r) as X. unfold Rsqr in X. lra.
Qed.
Lemma corr_ed y k : epd y -> ed (e_corr y) <= ed y - 2 * k * eb y + k * k * (ea y + r).
Proof.
  intros (A & _). unfold FollowProofs.e_corr. cbn [ed]. set (S := ea y + r). assert (S0 : 0 < S) by (unfold S; lra).
  assert (X : 0 <= (eb y - k * S) * (eb y - k * S) / S) by (apply Rmult_le_pos; [apply Rle_0_sqr|left; apply Rinv_0_lt_compat, S0]).
  replace ((eb y - k * S) * (eb y - k * S) / S) with (eb y * eb y / S - 2 * k * eb y + k * k * S) in X by (field; lra). lra.
Qed.
Lemma corr_ed_le y : epd y -> ed (e_corr y) <= ed y.
Proof. intros P. pose proof (corr_ed y 0 P). lra. Qed.
(** The variance of the velocity after a gap. *)
Lemma jump_ed j x D s : epd x -> ea x <= r -> ed x <= D -> 0 <= s <= 1 -> (0 <= eb x \/ s = 1) ->
  ed (e_corr (jump (S j) x)) <= (1 - s) * (1 - s) * D + s * s * (2 * r + qp) + INR (S j) * qv.
Proof.
  intros P Ha Hd Hs Hb. destruct (V_jump (S j) x P) as [Q _]. assert (G : 1 <= INR (S j)) by (rewrite S_INR; pose proof (pos_INR j); lra).
  eapply Rle_trans; [apply (corr_ed _ (s * / INR (S j)) Q)|]. rewrite jump_closed. cbn [ed eb ea]. set (g := INR (S j)) in *.
  replace (ed x + g * qv - 2 * (s * / g) * (eb x + g * ed x + g * (g - 1) / 2 * qv) +
    s * / g * (s * / g) * (ea x + 2 * g * eb x + g * g * ed x + g * qp + g * (g - 1) * (2 * g - 1) / 6 * qv + r))
    with ((1 - s) * (1 - s) * ed x - 2 * s * / g * (1 - s) * eb x + s * s * (/ g * / g * (ea x + r) + / g * qp) + (g - s * (g - 1) + s * s * (g - 1) * (2 - / g) / 6) * qv) by (field; lra).
  assert (I1 : / g <= 1) by (rewrite <- Rinv_1; apply Rinv_le_contravar; lra). assert (I0 : 0 < / g) by (apply Rinv_0_lt_compat; lra). assert (Ig : g * / g = 1) by (field; lra).
  destruct P as (A & _).
  assert (X1 : (1 - s) * (1 - s) * ed x <= (1 - s) * (1 - s) * D) by (apply Rmult_le_compat_l; [apply Rle_0_sqr|exact Hd]).
  assert (X2 : 0 <= 2 * s * / g * (1 - s) * eb x). { destruct Hb as [Hb| ->]; [|lra]. apply Rmult_le_pos; [|exact Hb]. apply Rmult_le_pos; [|lra]. apply Rmult_le_pos; lra. }
  assert (X3 : s * s * (/ g * / g * (ea x + r) + / g * qp) <= s * s * (2 * r + qp)).
  { apply Rmult_le_compat_l; [apply Rle_0_sqr|]. assert (/ g * / g <= 1) by nra. assert (/ g * / g * (ea x + r) <= 2 * r) by nra. assert (/ g * qp <= qp) by nra. lra. }
  assert (X4 : (g - s * (g - 1) + s * s * (g - 1) * (2 - / g) / 6) * qv <= g * qv).
  { apply Rmult_le_compat_r; [exact Hqv|]. assert (Y : 0 <= s * (g - 1)) by (apply Rmult_le_pos; lra). assert (Z : s * (2 - / g) <= 2) by nra.
    assert (s * (g - 1) * (s * (2 - / g)) <= s * (g - 1) * 2) by (apply Rmult_le_compat_l; assumption).
    replace (s * s * (g - 1) * (2 - / g) / 6) with (s * (g - 1) * (s * (2 - / g)) / 6) by (field; lra). lra. }
  lra.
Qed.
Lemma corr_eb y : epd y -> 0 <= eb y -> 0 <= eb (e_corr y).
Proof. intros (A & _) B. unfold FollowProofs.e_corr. cbn [eb]. apply Rmult_le_pos; [apply Rmult_le_pos; lra|left; apply Rinv_0_lt_compat; lra]. Qed.
Lemma jump_eb j x : epd x -> 0 <= eb x -> 0 <= eb (jump j x).
Proof.
  intros P B. induction j as [|j IH]; [exact B|]. cbn [jump]. destruct (V_jump j x P) as ((_ & D & _) & _). unfold FollowProofs.e_pred. cbn [eb]. lra.
Qed.
Lemma first_ed j x : epd x -> ed (e_corr (jump j x)) <= ed x + INR j * qv.
Proof. intros P. destruct (V_jump j x P) as [Q _]. eapply Rle_trans; [apply corr_ed_le, Q|]. rewrite jump_closed. cbn [ed]. lra. Qed.

(** The error after [j] calls without a correction. *)
Lemma coast_bound x j D : epd x -> ea x <= r -> ed x <= D ->
  (e1 x + INR j * e2 x) * (e1 x + INR j * e2 x) <= (sqrt r + INR j * sqrt D) * (sqrt r + INR j * sqrt D) * V x.
Proof.
  intros P Ha Hd. set (g := INR j). pose proof (pos_INR j) as G0. fold g in G0. pose proof (V_nonneg x P) as Vn. assert (P' := P). destruct P' as (A & D' & C). unfold det in C.
  set (y := MkErr (e1 x + g * e2 x) (e2 x) (ea x + 2 * g * eb x + g * g * ed x) (eb x + g * ed x) (ed x)).
  assert (Dy : det y = det x) by (unfold det, y; cbn; ring). assert (Ny : num y = num x) by (unfold num, y; cbn; ring).
  assert (Hab : 0 <= ea x + 2 * g * eb x + g * g * ed x).
  { apply (Rmult_le_reg_l (ea x)); [exact A|]. rewrite Rmult_0_r.
    replace (ea x * (ea x + 2 * g * eb x + g * g * ed x)) with ((ea x + g * eb x) * (ea x + g * eb x) + g * g * (ea x * ed x - eb x * eb x)) by ring.
    pose proof (Rle_0_sqr (ea x + g * eb x)). pose proof (Rle_0_sqr g). unfold Rsqr in *. nra. }
  assert (B : e1 y * e1 y <= ea y * V y).
  { destruct (Rle_lt_or_eq_dec 0 (ea y)) as [L|L]; [unfold y; cbn; lra| |].
    - apply e1_bound. split; [exact L|]. split; [exact D'|]. rewrite Dy. exact C.
    - exfalso. unfold det in Dy. rewrite <- L in Dy. pose proof (Rle_0_sqr (eb y)) as X. unfold Rsqr in X. lra. }
  unfold V in B at 1. rewrite Dy, Ny in B. fold (V x) in B. cbn [y e1 ea] in B. eapply Rle_trans; [exact B|]. apply Rmult_le_compat_r; [exact Vn|].
  assert (Sa : sqrt (ea x) * sqrt (ea x) = ea x) by (apply sqrt_sqrt; lra). assert (Sd : sqrt (ed x) * sqrt (ed x) = ed x) by (apply sqrt_sqrt; lra).
  pose proof (sqrt_pos (ea x)) as Pa. pose proof (sqrt_pos (ed x)) as Pd.
  assert (La : sqrt (ea x) <= sqrt r) by (apply sqrt_le_1; lra). assert (Ld : sqrt (ed x) <= sqrt D) by (apply sqrt_le_1; lra).
  assert (Lb : eb x <= sqrt (ea x) * sqrt (ed x)).
  { apply Rsqr_incr_0_var; [|apply Rmult_le_pos; assumption]. unfold Rsqr. replace (sqrt (ea x) * sqrt (ed x) * (sqrt (ea x) * sqrt (ed x))) with (ea x * ed x) by (rewrite <- Sa, <- Sd at 1; ring). lra. }
  apply (Rle_trans _ ((sqrt (ea x) + g * sqrt (ed x)) * (sqrt (ea x) + g * sqrt (ed x)))).
  - replace ((sqrt (ea x) + g * sqrt (ed x)) * (sqrt (ea x) + g * sqrt (ed x))) with (sqrt (ea x) * sqrt (ea x) + 2 * (g * (sqrt (ea x) * sqrt (ed x))) + g * g * (sqrt (ed x) * sqrt (ed x))) by ring.
    rewrite Sa, Sd. assert (g * eb x <= g * (sqrt (ea x) * sqrt (ed x))) by (apply Rmult_le_compat_l; auto). lra.
  - assert (0 <= g * sqrt (ed x)) by (apply Rmult_le_pos; auto). assert (g * sqrt (ed x) <= g * sqrt D) by (apply Rmult_le_compat_l; auto). apply Rmult_le_compat; lra.
Qed.
End Jump.

Lemma err_pred qp qv x v c : err_of (x + v) v (c2_predict qp qv c) = e_pred qp qv (err_of x v c).
Proof. destruct c as [p w a b d]. unfold err_of, c2_predict, e_pred. cbn. f_equal; ring. Qed.
Lemma err_corr r x v c : epd (err_of x v c) -> 0 < r -> err_of x v (c2_update r c x 1) = e_corr r (err_of x v c).
Proof. intros (A & _) Hr. destruct c as [p w a b d]. unfold err_of, c2_update, e_corr in *. cbn in *. f_equal; field; lra. Qed.

Lemma rep_S {A} (a : A) j : repeat a (S j) = repeat a j ++ [a].
Proof. cbn. apply repeat_cons. Qed.
Lemma misses_repeat j : misses (repeat None j).
Proof. intros o Ho. apply repeat_spec in Ho. exact Ho. Qed.

Section Generic.
Variable FO : filter_ops RNum.
Variables qp qv r a0 b0 d0 : R.
Variables G T : nat.
Hypothesis Hqp : 0 <= qp.
Hypothesis Hqv : 0 <= qv.
Hypothesis Hr : 0 < r.
Hypothesis Ha0 : 0 < a0.
Hypothesis Hd0 : 0 < d0.
Hypothesis Hdet : b0 * b0 < a0 * d0.
Variable Rel : nat -> nat -> fstate FO -> crd -> Prop.
Hypothesis Hstart : forall z0 k x, nth_error (flatten z0) k = Some x -> Rel (length (flatten z0)) k (f_create FO z0) (MkCoord (N := RNum) x 0 a0 b0 d0).
Hypothesis Hstep : forall d k f c m z, Rel d k f c -> pd c -> fits_dim d m -> nth_error (me_mask m) k = Some true -> nth_error (me_z m) k = Some z ->
  Rel d k (f_update FO (f_predict FO f) (me_z m) (map bit (me_mask m))) (c2_update r (c2_predict qp qv c) z 1).
Hypothesis Hout : forall d k f c, Rel d k f c -> nth_error (f_x FO f) k = Some (c_pos c) /\ nth_error (f_x FO f) (k + d) = Some (c_vel c).
Hypothesis Hcoast : forall d k f c, Rel d k f c -> exists c', Rel d k (f_predict FO f) c' /\ c_pos c' = c_pos c + c_vel c /\ c_vel c' = c_vel c.
Variable D : R.
Hypothesis HD : velocity_bound qp qv r b0 d0 G D.
Hypothesis Hgap : G = O \/ forall d k f c, Rel d k f c -> Rel d k (f_predict FO f) (c2_predict qp qv c).

Notation x0 v := (MkErr 0 (- v) a0 b0 d0).
Definition run_from (f : fstate FO) (l : list (option measurement)) : fstate FO := fold_left (fun s o => match o with
    | Some m => f_update FO (f_predict FO s) (me_z m) (map bit (me_mask m)) | None => f_predict FO s end) l f.

Lemma coast_rel d k f c j : Rel d k f c -> exists c', Rel d k (run_from f (repeat None j)) c' /\ c_pos c' = c_pos c + INR j * c_vel c /\ c_vel c' = c_vel c.
Proof.
  intros H. induction j as [|j (c' & A & B & E)].
  - exists c. split; [exact H|]. split; [cbn; lra|reflexivity].
  - destruct (Hcoast _ _ _ _ A) as (c'' & A' & B' & E'). exists c''. split.
    + unfold run_from in *. rewrite rep_S, fold_left_app. exact A'.
    + rewrite S_INR, B', E', B, E. split; [|reflexivity]. change (@eq R (c_pos c + INR j * c_vel c + c_vel c) (c_pos c + (INR j + 1) * c_vel c)). ring.
Qed.
Fixpoint pred_n (j : nat) (c : crd) : crd := match j with O => c | S j => c2_predict qp qv (pred_n j c) end.
Lemma gap_rel d k f c j : (j <= G)%nat -> Rel d k f c -> Rel d k (run_from f (repeat None j)) (pred_n j c).
Proof.
  intros Hj H. destruct Hgap as [->|Hg]; [replace j with O by lia; exact H|]. clear Hj. induction j as [|j IH]; [exact H|].
  unfold run_from in *. rewrite rep_S, fold_left_app. apply Hg, IH.
Qed.
Lemma pred_err x v j c : err_of (x + INR j * v) v (pred_n j c) = jump qp qv j (err_of x v c).
Proof.
  induction j as [|j IH]; [cbn; f_equal; ring|]. cbn [pred_n jump]. rewrite <- IH, <- err_pred, S_INR. f_equal. ring.
Qed.

(** After any calls: the state at the last correction, and the number of predictions since then. *)
Lemma gap_state v x k z0 ms : moves_with_gaps v x k z0 ms -> gaps_at_most G ms -> exists pre j c, ms = pre ++ repeat None j /\
  Rel (length (flatten z0)) k (gap_run FO z0 pre) c /\ let y := err_of (x + INR (length pre) * v) v c in
  epd y /\ V y <= V (x0 v) /\ (y = x0 v \/ (ea y <= r /\ ed y <= D)) /\ (0 <= b0 -> 0 <= eb y).
Proof.
  intros M Gm. assert (P0 : epd (x0 v)) by (split; [|split]; cbn; unfold det; cbn; lra).
  induction ms as [|o ms IH] using rev_ind.
  - exists [], O, (MkCoord (N := RNum) x 0 a0 b0 d0). split; [reflexivity|]. split; [apply Hstart, M|]. cbv zeta. cbn [length INR].
    assert (E : err_of (x + 0 * v) v (MkCoord (N := RNum) x 0 a0 b0 d0) = x0 v) by (unfold err_of; cbn; f_equal; ring). rewrite E. split; [exact P0|]. split; [lra|]. split; [left; reflexivity|auto].
  - destruct IH as (pre & j & c & -> & A & B & Dv & E & Eb).
    { split; [apply M|]. intros j m Hj. apply M. rewrite nth_error_app1; [exact Hj|]. apply nth_error_Some. congruence. }
    { intros before l m after -> Hl. apply (Gm before l m (after ++ [o])); [rewrite <- !app_assoc; reflexivity|exact Hl]. }
    destruct o as [m|].
    2: { exists pre, (S j), c. split; [rewrite <- app_assoc; f_equal; rewrite rep_S; reflexivity|]. auto. }
    assert (Hj : (j <= G)%nat). { rewrite <- (repeat_length (@None measurement) j). apply (Gm pre _ m []); [rewrite app_assoc; reflexivity|apply misses_repeat]. }
    destruct M as [Mx Mm]. destruct (Mm (length (pre ++ repeat None j)) m) as (Fm & Mk & Mz); [rewrite nth_error_app2, Nat.sub_diag by lia; reflexivity|].
    rewrite app_length, repeat_length in Mz.
    pose proof (gap_rel _ _ _ _ j Hj A) as A1. set (xp := x + INR (length pre) * v) in *. set (y := err_of xp v c) in *. cbv zeta in B, Dv, E, Eb.
    destruct (V_jump qp qv Hqp Hqv j y B) as [B1 D1].
    assert (Pd : pd (pred_n j c)). { apply (pd_epd (xp + INR j * v) v). rewrite pred_err. exact B1. }
    pose proof (Hstep _ _ _ _ _ _ A1 Pd Fm Mk Mz) as A2.
    exists ((pre ++ repeat None j) ++ [Some m]), O, (c2_update r (c2_predict qp qv (pred_n j c)) (x + INR (S (length pre + j)) * v) 1).
    split; [cbn; rewrite app_nil_r; reflexivity|]. split.
    { unfold gap_run, run_from in *. rewrite !fold_left_app. exact A2. }
    cbv zeta. rewrite !app_length, repeat_length. cbn [length]. rewrite Nat.add_1_r.
    assert (Ex : x + INR (S (length pre + j)) * v = xp + INR j * v + v) by (unfold xp; rewrite S_INR, plus_INR; ring). rewrite Ex.
    destruct (V_jump qp qv Hqp Hqv (S j) y B) as [B2 D2]. cbn [jump] in B2, D2.
    assert (Ey : err_of (xp + INR j * v + v) v (c2_predict qp qv (pred_n j c)) = jump qp qv (S j) y) by (rewrite err_pred, pred_err; reflexivity).
    rewrite err_corr by (rewrite ?Ey; auto). rewrite Ey. cbn [jump]. destruct (V_corr r Hr _ B2) as [B3 D3]. split; [exact B3|]. split.
    { rewrite D3. assert (0 <= e1 (e_pred qp qv (jump qp qv j y)) * e1 (e_pred qp qv (jump qp qv j y)) / (ea (e_pred qp qv (jump qp qv j y)) + r)); [|lra].
      destruct B2 as (B2 & _). apply Rmult_le_pos; [apply Rle_0_sqr|left; apply Rinv_0_lt_compat; lra]. }
    assert (Jb : 0 <= b0 -> 0 <= eb (jump qp qv (S j) y)) by (intros Hb; apply jump_eb; auto).
    split; [|intros Hb; apply corr_eb; auto; apply (Jb Hb)].
    right. split; [apply corr_ea; auto|]. assert (Lg : INR (S j) <= INR (S G)) by (apply le_INR; lia). assert (Lq : INR (S j) * qv <= INR (S G) * qv) by (apply Rmult_le_compat_r; auto). destruct HD as (H1 & s & Hs & Hb & H2). destruct E as [E|[E1 E2]].
    + eapply Rle_trans; [apply (first_ed qp qv r Hqp Hqv Hr (S j) y B)|]. rewrite E. cbn [ed]. lra.
    + eapply Rle_trans; [apply (jump_ed qp qv r Hqp Hqv Hr j y D s B E1 E2 Hs)|lra]. destruct Hb as [Hb|Hb]; [left; apply Eb, Hb|right; exact Hb].
Qed.

Theorem generic_coasts : coasts_within FO G T (gap_constant r a0 b0 d0 D T).
Proof.
  intros v z0 ms k x M Gm Tm. destruct (gap_state v x k z0 ms M Gm) as (pre & j & c & -> & A & B & Dv & E & _). cbv zeta in *.
  assert (Hj : (j <= T)%nat). { rewrite <- (repeat_length (@None measurement) j). apply (Tm pre); [reflexivity|apply misses_repeat]. }
  destruct (coast_rel _ _ _ _ (S j) A) as (c' & A' & B' & _). destruct (Hout _ _ _ _ A') as [O1 _].
  exists (c_pos c'). split.
  { unfold gap_run, run_from in *. rewrite fold_left_app. rewrite rep_S, fold_left_app in O1. exact O1. }
  rewrite B', app_length, repeat_length. set (y := err_of (x + INR (length pre) * v) v c) in *.
  assert (Ee : c_pos c + INR (S j) * c_vel c - (x + INR (S (length pre + j)) * v) = e1 y + INR (S j) * e2 y) by (unfold y, err_of; cbn [e1 e2]; rewrite !S_INR, plus_INR; ring).
  rewrite Ee. assert (Lt : INR (S j) <= INR (S T)) by (apply le_INR; lia). assert (L0 : 0 < INR (S j)) by (apply lt_0_INR; lia).
  pose proof (Rle_0_sqr v) as X. unfold Rsqr in X. assert (Sq : INR (S j) * INR (S j) <= INR (S T) * INR (S T)) by (apply Rmult_le_compat; lra).
  unfold gap_constant. destruct E as [E|[E1 E2]].
  - eapply Rle_trans; [|apply Rmult_le_compat_r; [exact X|apply Rmax_l]]. rewrite E. cbn [e1 e2]. replace ((0 + INR (S j) * - v) * (0 + INR (S j) * - v)) with (INR (S j) * INR (S j) * (v * v)) by ring.
    apply Rmult_le_compat_r; auto.
  - eapply Rle_trans; [|apply Rmult_le_compat_r; [exact X|apply Rmax_r]]. eapply Rle_trans; [apply (coast_bound r Hr y (S j) D B E1 E2)|].
    set (u := sqrt r + INR (S T) * sqrt D). pose proof (sqrt_pos r) as S1. pose proof (sqrt_pos D) as S2.
    assert (U : sqrt r + INR (S j) * sqrt D <= u) by (unfold u; assert (INR (S j) * sqrt D <= INR (S T) * sqrt D) by (apply Rmult_le_compat_r; auto); lra).
    assert (U0 : 0 <= sqrt r + INR (S j) * sqrt D) by (assert (0 <= INR (S j) * sqrt D) by (apply Rmult_le_pos; lra); lra).
    apply (Rle_trans _ (u * u * V (x0 v))).
    + apply Rmult_le_compat; [apply Rle_0_sqr|apply V_nonneg, B| |exact Dv]. apply Rmult_le_compat; auto.
    + right. unfold V, num, det. cbn [e1 e2 ea eb ed]. field. lra.
Qed.
End Generic.

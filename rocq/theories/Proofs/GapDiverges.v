(** C96: the optimized filter with the default parameters, corrected in every 64th call only: the error grows without bound. *)
From Coq Require Import ZArith QArith Reals Lra Lia Psatz Bool List Arith.
From Verif Require Import Model.Num Model.Base Model.Filter Model.KalmanMatrix Spec.KalmanSpec Spec.PointSpec Spec.FollowSpec Spec.GapSpec.
From Verif Require Import Proofs.MatrixProofs Proofs.PointProofs Proofs.FilterTracker Proofs.KalmanProofs Proofs.KalmanTheorems Proofs.FollowProofs Proofs.FollowFilters Proofs.GapProofs.
Import ListNotations.
Local Open Scope R_scope.

(* ---- the covariance stays above a fixed one ---- *)
Definition quad (a b d y1 y2 : R) : R := a * (y1 * y1) + 2 * b * (y1 * y2) + d * (y2 * y2).
Notation la := (1768 / 1000). Notation lb := (467 / 1000). Notation ld := (369 / 1000).
Definition above_low (x : err) : Prop := forall y1 y2, quad la lb ld y1 y2 <= quad (ea x) (eb x) (ed x) y1 y2.
Notation step x := (e_corr 4 (e_pred (1 / 10) (1 / 10) x)).

Lemma quad_corr r x y1 y2 l : 0 < r -> 0 < ea x -> quad (ea (e_corr r x)) (eb (e_corr r x)) (ed (e_corr r x)) y1 y2 <= quad (ea x) (eb x) (ed x) (y1 - l) y2 + r * (l * l).
Proof.
  intros Hr A. unfold quad, e_corr. cbn [ea eb ed]. set (S := ea x + r). assert (S0 : 0 < S) by (unfold S; lra).
  assert (X : 0 <= (S * l - (ea x * y1 + eb x * y2)) * (S * l - (ea x * y1 + eb x * y2)) / S) by (apply Rmult_le_pos; [apply Rle_0_sqr|left; apply Rinv_0_lt_compat, S0]).
  replace ((S * l - (ea x * y1 + eb x * y2)) * (S * l - (ea x * y1 + eb x * y2)) / S) with
    (S * (l * l) - 2 * l * (ea x * y1 + eb x * y2) + (ea x * y1 + eb x * y2) * (ea x * y1 + eb x * y2) / S) in X by (field; lra).
  assert (E : ea x * r / S * (y1 * y1) + 2 * (eb x * r / S) * (y1 * y2) + (ed x - eb x * eb x / S) * (y2 * y2) =
    ea x * (y1 * y1) + 2 * eb x * (y1 * y2) + ed x * (y2 * y2) - (ea x * y1 + eb x * y2) * (ea x * y1 + eb x * y2) / S) by (unfold S; field; unfold S in S0; lra).
  rewrite E. unfold S in X at 1. lra.
Qed.
Lemma quad_corr_min r x y1 y2 : 0 < r -> 0 < ea x -> let l := (ea x * y1 + eb x * y2) / (ea x + r) in
  quad (ea (e_corr r x)) (eb (e_corr r x)) (ed (e_corr r x)) y1 y2 = quad (ea x) (eb x) (ed x) (y1 - l) y2 + r * (l * l).
Proof. intros Hr A. unfold quad, e_corr. cbn [ea eb ed]. field. lra. Qed.
Lemma quad_pred x y1 y2 : quad (ea (e_pred (1 / 10) (1 / 10) x)) (eb (e_pred (1 / 10) (1 / 10) x)) (ed (e_pred (1 / 10) (1 / 10) x)) y1 y2 =
  quad (ea x) (eb x) (ed x) y1 (y1 + y2) + 1 / 10 * (y1 * y1 + y2 * y2).
Proof. unfold quad, e_pred. cbn [ea eb ed]. field. Qed.
Lemma low_step : above_low (step (MkErr 0 0 la lb ld)).
Proof.
  intros y1 y2. unfold quad, e_corr, e_pred. cbn [ea eb ed e1 e2].
  match goal with |- ?L <= ?A * (y1 * y1) + 2 * ?B * (y1 * y2) + ?D * (y2 * y2) => set (A' := A); set (B' := B); set (D' := D) end.
  assert (HA : A' >= 1768 / 1000 + 7 / 10000) by (unfold A'; lra).
  assert (HB1 : - (7 / 10000) <= B' - 467 / 1000 <= 0) by (unfold B'; split; lra). assert (HD : D' >= 369 / 1000 + 25 / 10000) by (unfold D'; lra). clearbody A' B' D'.
  set (p := y1 * y1). set (q := y2 * y2). assert (P : 0 <= p) by apply Rle_0_sqr. assert (Q : 0 <= q) by apply Rle_0_sqr.
  assert (S1 : 2 * (y1 * y2) <= p + q) by (pose proof (Rle_0_sqr (y1 - y2)) as X; unfold Rsqr, p, q in *; lra). assert (S2 : - (p + q) <= 2 * (y1 * y2)) by (pose proof (Rle_0_sqr (y1 + y2)) as X; unfold Rsqr, p, q in *; lra).
  set (s := 2 * (y1 * y2)) in *.
  assert (T : (467 / 1000 - B') * s <= (467 / 1000 - B') * (p + q)) by (apply Rmult_le_compat_l; lra).
  assert (T2 : (467 / 1000 - B') * (p + q) <= 7 / 10000 * (p + q)) by (apply Rmult_le_compat_r; lra).
  replace (2 * B' * (y1 * y2)) with (B' * s) by (unfold s; ring). replace (2 * lb * (y1 * y2)) with (lb * s) by (unfold s; ring).
  assert ((1768 / 1000 + 7 / 10000) * p <= A' * p) by (apply Rmult_le_compat_r; lra). assert ((369 / 1000 + 25 / 10000) * q <= D' * q) by (apply Rmult_le_compat_r; lra). lra.
Qed.
Lemma above_step x : 0 < ea (e_pred (1 / 10) (1 / 10) x) -> above_low x -> above_low (step x).
Proof.
  intros A H y1 y2. eapply Rle_trans; [apply low_step|]. rewrite (quad_corr_min 4 (e_pred (1 / 10) (1 / 10) x)) by (auto; lra). cbv zeta. set (z := e_pred (1 / 10) (1 / 10) x) in *. set (l := (ea z * y1 + eb z * y2) / (ea z + 4)). clearbody l. subst z.
  eapply Rle_trans; [apply (quad_corr 4 _ y1 y2 l); [lra|unfold e_pred; cbn [ea eb ed]; lra]|]. apply Rplus_le_compat_r. rewrite !quad_pred. cbn [ea eb ed]. apply Rplus_le_compat_r. apply H.
Qed.

(* ---- the region of the covariances after the first correction ---- *)
Record region (x : err) : Prop := { rg_low : above_low x; rg_a : ea x <= 3; rg_b : 21 / 100 <= eb x <= 5 / 4; rg_d : ed x <= 11 / 10 }.
Lemma region_bounds x : region x -> 1768 / 1000 <= ea x /\ 369 / 1000 <= ed x.
Proof. intros [L _ _ _]. pose proof (L 1 0) as X. pose proof (L 0 1) as Y. unfold quad in X, Y. lra. Qed.
Lemma region_step x : region x -> region (step x).
Proof.
  intros G. destruct (region_bounds x G) as [A1 D1]. destruct G as [L A [B1 B2] D]. constructor.
  - apply above_step; [unfold e_pred; cbn [ea eb ed]; lra|exact L].
  - unfold e_corr, e_pred. cbn [ea eb ed]. set (S := ea x + 2 * eb x + ed x + 1 / 10 + 4). assert (S0 : 0 < S) by (unfold S; lra). apply (Rmult_le_reg_r S); [exact S0|].
    replace ((ea x + 2 * eb x + ed x + 1 / 10) * 4 / S * S) with ((ea x + 2 * eb x + ed x + 1 / 10) * 4) by (field; lra). unfold S. lra.
  - unfold e_corr, e_pred. cbn [ea eb ed]. set (S := ea x + 2 * eb x + ed x + 1 / 10 + 4). assert (S0 : 0 < S) by (unfold S; lra). split; apply (Rmult_le_reg_r S); try exact S0;
      replace ((eb x + ed x) * 4 / S * S) with ((eb x + ed x) * 4) by (field; lra); unfold S; lra.
  - unfold e_corr, e_pred. cbn [ea eb ed]. set (S := ea x + 2 * eb x + ed x + 1 / 10 + 4). assert (S0 : 0 < S) by (unfold S; lra). apply (Rmult_le_reg_r S); [exact S0|].
    replace ((ed x + 1 / 10 - (eb x + ed x) * (eb x + ed x) / S) * S) with ((ed x + 1 / 10) * S - (eb x + ed x) * (eb x + ed x)) by (field; lra). unfold S. nra.
Qed.
Lemma region_first y1 y2 : region (step (MkErr y1 y2 10 0 1)).
Proof.
  constructor.
  - apply above_step; [unfold e_pred; cbn [ea eb ed]; lra|]. intros z1 z2. unfold quad. cbn [ea eb ed]. set (p := z1 * z1). set (q := z2 * z2). assert (P : 0 <= p) by apply Rle_0_sqr. assert (Q : 0 <= q) by apply Rle_0_sqr.
    assert (S1 : 2 * (z1 * z2) <= p + q) by (pose proof (Rle_0_sqr (z1 - z2)) as X; unfold Rsqr, p, q in *; lra). lra.
  - unfold e_corr, e_pred. cbn [ea eb ed]. try split; lra.
  - unfold e_corr, e_pred. cbn [ea eb ed]. try split; lra.
  - unfold e_corr, e_pred. cbn [ea eb ed]. try split; lra.
Qed.
(** The gains of the next correction. *)
Lemma gains x : region x -> let y := e_pred (1 / 10) (1 / 10) x in 522 / 10000 <= eb y / (ea y + 4) /\ 0 < 4 / (ea y + 4) <= 61 / 100.
Proof.
  intros G. destruct (region_bounds x G) as [A1 D1]. destruct G as [L A [B1 B2] D]. cbv zeta. cbn [e_pred ea eb]. set (S := ea x + 2 * eb x + ed x + 1 / 10 + 4). assert (S0 : 0 < S) by (unfold S; lra).
  split; [|split].
  - apply (Rmult_le_reg_r S); [exact S0|]. replace ((eb x + ed x) / S * S) with (eb x + ed x) by (field; lra). unfold S. lra.
  - apply Rmult_lt_0_compat; [lra|apply Rinv_0_lt_compat, S0].
  - apply (Rmult_le_reg_r S); [exact S0|]. replace (4 / S * S) with 4 by (field; lra). unfold S. lra.
Qed.

(* ---- the errors ---- *)
Definition coast (j : R) (x : err) : err := MkErr (e1 x + j * e2 x) (e2 x) (ea x) (eb x) (ed x).
Definition round (x : err) : err := step (coast 63 x).
Definition ahead (x : err) : R := e1 x + 64 * e2 x.
Definition runs_away (x : err) : Prop := exists rho, 0 <= rho <= 16 / 10 /\ 64 * e2 x = rho * ahead x.
Lemma round_away x : (region x \/ (ea x = 10 /\ eb x = 0 /\ ed x = 1)) -> runs_away x ->
  region (round x) /\ runs_away (round x) /\ 11 / 10 * Rabs (ahead x) <= Rabs (ahead (round x)).
Proof.
  intros G (rho & Hr & E).
  assert (Gn : let y := e_pred (1 / 10) (1 / 10) (coast 63 x) in 522 / 10000 <= eb y / (ea y + 4) /\ 0 < 4 / (ea y + 4) <= 61 / 100).
  { destruct G as [G|(Ga & Gb & Gd)].
    - apply gains. destruct G as [L A B D]. constructor; auto.
    - cbv zeta. unfold coast, e_pred; cbn [ea eb ed]. rewrite Ga, Gb, Gd. repeat split; lra. }
  split.
  { destruct G as [G|(Ga & Gb & Gd)].
    - apply region_step. destruct G as [L A B D]. constructor; auto.
    - unfold round, coast. rewrite Ga, Gb, Gd. apply region_first. }
  cbv zeta in Gn. unfold runs_away, ahead, round in *. unfold e_corr. cbn [e1 e2]. set (kv := eb _ / _) in *. set (m := 4 / _) in *. cbn [e_pred coast e1 e2]. clearbody kv m. destruct Gn as [G1 G2].
  set (w := e2 x) in *. set (u := e1 x + 64 * w) in *. replace (e1 x + 63 * w + w) with u by (unfold u; ring). clearbody u.
  set (X := 64 * kv - rho). assert (HX : 174 / 100 <= X) by (unfold X; lra).
  assert (E1 : 64 * (w - kv * u) = - X * u) by (unfold X; lra). assert (E2 : m * u + 64 * (w - kv * u) = - (X - m) * u) by (rewrite E1; ring).
  rewrite E2. split.
  - exists (X / (X - m)). split; [split|].
    + apply Rmult_le_pos; [lra|left; apply Rinv_0_lt_compat; lra].
    + apply (Rmult_le_reg_r (X - m)); [lra|]. replace (X / (X - m) * (X - m)) with X by (field; lra). lra.
    + rewrite E1. field. lra.
  - rewrite Rabs_mult. rewrite (Rabs_left (- (X - m))) by lra. apply Rmult_le_compat_r; [apply Rabs_pos|lra].
Qed.
Fixpoint rounds (k : nat) (x : err) : err := match k with O => x | S k => round (rounds k x) end.
Lemma rounds_away x k : ea x = 10 -> eb x = 0 -> ed x = 1 -> runs_away x ->
  (k = O \/ region (rounds k x)) /\ runs_away (rounds k x) /\ Rabs (ahead x) * (1 + INR k / 10) <= Rabs (ahead (rounds k x)).
Proof.
  intros A B D W. induction k as [|k (G & W' & L)]; [split; [left; reflexivity|]; split; [exact W|cbn; lra]|]. cbn [rounds].
  destruct (round_away (rounds k x)) as (G' & W'' & L'); [|exact W'|].
  - destruct G as [->|G]; [right; auto|left; exact G].
  - split; [right; exact G'|]. split; [exact W''|]. eapply Rle_trans; [|exact L']. rewrite S_INR. pose proof (pos_INR k) as K. pose proof (Rabs_pos (ahead x)) as P. set (a := Rabs (ahead x)) in *. set (b := Rabs (ahead (rounds k x))) in *.
    assert (a <= b) by (assert (0 <= a * (INR k / 10)) by (apply Rmult_le_pos; lra); lra). lra.
Qed.
Lemma round_epd x : epd x -> epd (round x).
Proof. intros P. unfold round. apply (V_corr 4 ltac:(lra)). apply (V_pred (1 / 10) (1 / 10) ltac:(lra) ltac:(lra)). exact P. Qed.
Lemma rounds_epd x k : epd x -> epd (rounds k x).
Proof. intros P. induction k as [|k IH]; [exact P|apply round_epd, IH]. Qed.

(* ---- the filter ---- *)
Definition gap_measurement (k : nat) : measurement := MkMeas [INR (64 * S k)] [true].
Definition gap_rounds (k : nat) : list (option measurement) := flat_map (fun j => repeat None 63 ++ [Some (gap_measurement j)]) (seq 0 k).
Local Notation p := (okf_default_params (N := RNum)).

Lemma okf_coast_rel d k f c j : okf_rel p d k f c -> exists c', okf_rel p d k (run_from (okf_ops p) f (repeat None j)) c' /\
  c_pos c' = c_pos c + INR j * c_vel c /\ c_vel c' = c_vel c /\ c_pv c' = c_pv c /\ c_cov c' = c_cov c /\ c_vv c' = c_vv c.
Proof.
  intros H. induction j as [|j (c' & A & B & E & F)].
  - exists c. split; [exact H|]. split; [cbn; lra|auto].
  - destruct A as [I C]. pose proof (okf_do_inv p d _ Predict I Logic.I) as I1. pose proof (okf_do_coord p d _ Predict k c' I Logic.I C) as C1.
    exists (coord_do p c' (proj k Predict)). split; [|split; [|split; [|exact F]]].
    + unfold run_from in *. rewrite rep_S, fold_left_app. split; [exact I1|exact C1].
    + cbn [proj coord_do coord_predict c_pos]. rewrite S_INR. change (@eq R (c_pos c' + c_vel c') (c_pos c + (INR j + 1) * c_vel c)). rewrite B, E. ring.
    + exact E.
Qed.
Lemma rounds_S k : gap_rounds (S k) = gap_rounds k ++ repeat None 63 ++ [Some (gap_measurement k)].
Proof. unfold gap_rounds. rewrite List.seq_S, flat_map_app. cbn [flat_map]. rewrite app_nil_r. reflexivity. Qed.
Lemma rounds_length k : length (gap_rounds k) = (64 * k)%nat.
Proof. induction k as [|k IH]; [reflexivity|]. rewrite rounds_S, !app_length, repeat_length, IH. cbn [length]. lia. Qed.
Notation start := (MkErr 0 (-1) 10 0 1).
Lemma default_Q : kp_Q p = 1 / 10. Proof. exact Q2R_tenth. Qed.
Lemma default_R : kp_R p = 4. Proof. exact Q2R_4. Qed.
Lemma rounds_state k : exists c, okf_rel p 1 0 (gap_run (okf_ops p) [[0]] (gap_rounds k)) c /\ err_of (INR (64 * k)) 1 c = rounds k start.
Proof.
  induction k as [|k (c & A & E)].
  - eexists. split; [apply (okf_rel_start p [[0]] 0%nat 0 eq_refl)|]. unfold err_of. cbn. rewrite Q2R_10, Q2R_0, Q2R_1. f_equal; lra.
  - destruct (okf_coast_rel _ _ _ _ 63 A) as (c' & A' & B1 & B2 & B3 & B4 & B5).
    assert (Ec : err_of (INR (64 * k) + 63) 1 c' = coast 63 (rounds k start)).
    { rewrite <- E. unfold err_of, coast. cbn [e1 e2 ea eb ed]. rewrite B1, B2, B3, B4, B5. replace (INR 63) with 63 by (rewrite INR_IZR_INZ; reflexivity). f_equal. lra. }
    assert (P : epd (rounds k start)) by (apply rounds_epd; repeat split; cbn; unfold det; cbn; lra).
    assert (Pd : pd c'). { apply (pd_epd (INR (64 * k) + 63) 1). rewrite Ec. exact P. }
    assert (X : INR (64 * S k) = INR (64 * k) + 63 + 1) by (replace (64 * S k)%nat with (64 * k + 64)%nat by lia; rewrite plus_INR; replace (INR 64) with 64 by (rewrite INR_IZR_INZ; reflexivity); ring).
    destruct defaults_ok as (HR & HQ & _).
    pose proof (okf_rel_step p HR HQ 1 0 _ c' (gap_measurement k) (INR (64 * S k)) A' Pd (conj eq_refl eq_refl) eq_refl eq_refl) as A2.
    eexists. split.
    + rewrite rounds_S. unfold gap_run, run_from in *. rewrite !fold_left_app. exact A2.
    + rewrite default_Q, default_R. cbn [rounds]. unfold round. rewrite <- Ec, <- err_pred, X. apply err_corr; [|lra]. rewrite err_pred, Ec. apply (V_pred (1 / 10) (1 / 10)); [lra|lra|exact P].
Qed.
Lemma rounds_move k : moves_with_gaps 1 0 0 [[0]] (gap_rounds k ++ repeat None 63).
Proof.
  split; [reflexivity|]. intros j m H.
  destruct (Nat.lt_ge_cases j (length (gap_rounds k))) as [L|L].
  2: { rewrite nth_error_app2 in H by exact L. apply nth_error_In, repeat_spec in H. discriminate. }
  rewrite nth_error_app1 in H by exact L. clear L. enough (E : exists i, m = gap_measurement i /\ S j = (64 * S i)%nat).
  { destruct E as (i & -> & ->). split; [split; reflexivity|]. split; [reflexivity|]. cbn [me_z gap_measurement nth_error]. f_equal. lra. }
  induction k as [|k IH]; [destruct j; discriminate|]. rewrite rounds_S in H. destruct (Nat.lt_ge_cases j (length (gap_rounds k))) as [L|L]; [rewrite nth_error_app1 in H by exact L; auto|].
  rewrite nth_error_app2 in H by exact L. rewrite rounds_length in *. destruct (Nat.lt_ge_cases (j - 64 * k) 63) as [L2|L2].
  - rewrite nth_error_app1 in H by (rewrite repeat_length; exact L2). apply nth_error_In, repeat_spec in H. discriminate.
  - rewrite nth_error_app2, repeat_length in H by (rewrite repeat_length; exact L2). destruct (j - 64 * k - 63)%nat as [|i] eqn:Ei; [|destruct i; discriminate]. injection H as <-. exists k. split; [reflexivity|lia].
Qed.
(** Of 64 calls in a row, one has a measurement. *)
Lemma rounds_gap k before l after : gap_rounds k ++ repeat None 63 = before ++ l ++ after -> misses l -> (length l <= 63)%nat.
Proof.
  intros E M. destruct (Nat.le_gt_cases (length l) 63) as [|L]; [assumption|exfalso].
  assert (Ln : (length before + length l <= 64 * k + 63)%nat) by (apply (f_equal (@length _)) in E; rewrite !app_length, repeat_length, rounds_length in E; lia).
  assert (At : forall i, (i < k)%nat -> nth_error (gap_rounds k ++ repeat None 63) (64 * i + 63) = Some (Some (gap_measurement i))).
  { clear. intros i Hi. rewrite nth_error_app1 by (rewrite rounds_length; lia). induction k as [|k IH]; [lia|]. rewrite rounds_S. destruct (Nat.eq_dec i k) as [->|].
    - rewrite nth_error_app2 by (rewrite rounds_length; lia). rewrite rounds_length. replace (64 * k + 63 - 64 * k)%nat with 63%nat by lia. reflexivity.
    - rewrite nth_error_app1 by (rewrite rounds_length; lia). apply IH. lia. }
  set (i := (length before / 64)%nat). pose proof (Nat.div_mod (length before) 64 ltac:(lia)) as Dm. pose proof (Nat.mod_upper_bound (length before) 64 ltac:(lia)) as Mu. fold i in Dm.
  assert (Hi : (i < k)%nat) by lia. specialize (At i Hi). rewrite E in At. rewrite nth_error_app2 in At by lia. rewrite nth_error_app1 in At by lia. apply nth_error_In, M in At. discriminate.
Qed.

Theorem okf_gaps_diverge C T : (63 <= T)%nat -> ~ coasts_within (okf_ops p) 63 T C.
Proof.
  intros HT H.
  assert (U : forall k, (1 + INR k / 10) * (1 + INR k / 10) <= C).
  { intros k. destruct (H 1 [[0]] (gap_rounds k ++ repeat None 63) 0%nat 0 (rounds_move k)) as (y & Hy & Le).
    - intros before l m after E M. apply (rounds_gap k before l (Some m :: after) E M).
    - intros before l E M. enough (length l <= 63)%nat by lia. apply (rounds_gap k before l []); [rewrite app_nil_r; exact E|exact M].
    - destruct (rounds_state k) as (c & A & E). destruct (okf_coast_rel _ _ _ _ 64 A) as (c' & A' & B1 & _). destruct (okf_rel_out p _ _ _ _ A') as [O1 _].
      assert (Ey : y = c_pos c'). { assert (X : Some y = Some (c_pos c')); [|injection X; auto]. rewrite <- Hy, <- O1. change 64%nat with (S 63). rewrite rep_S. unfold gap_run, run_from. rewrite !fold_left_app. reflexivity. }
      destruct (rounds_away start k eq_refl eq_refl eq_refl) as (_ & _ & L); [exists 1; unfold ahead; cbn; lra|].
      assert (Eu : y - (0 + INR (S (length (gap_rounds k ++ repeat None 63))) * 1) = ahead (rounds k start)).
      { rewrite Ey, B1, <- E, app_length, repeat_length, rounds_length. unfold ahead, err_of. cbn [e1 e2]. replace (S (64 * k + 63)) with (64 * k + 64)%nat by lia. rewrite plus_INR. replace (INR 64) with 64 by (rewrite INR_IZR_INZ; reflexivity). lra. }
      rewrite Eu in Le. set (a := ahead (rounds k start)) in *. assert (Ea : a * a = Rabs a * Rabs a) by (rewrite <- Rabs_mult; symmetry; apply Rabs_pos_eq, Rle_0_sqr). rewrite Ea in Le.
      assert (A0 : Rabs (ahead start) = 64) by (unfold ahead; cbn; rewrite Rabs_left by lra; lra). rewrite A0 in L. pose proof (pos_INR k). assert (1 + INR k / 10 <= Rabs a) by lra.
      apply (Rle_trans _ (Rabs a * Rabs a)); [apply Rmult_le_compat; lra|lra]. }
  pose proof (U O) as U0. cbn in U0. destruct (archimed (10 * C)) as [Ar _]. assert (Hz : (0 <= up (10 * C))%Z) by (apply le_IZR; lra).
  set (k := Z.to_nat (up (10 * C))). assert (Hk : 10 * C < INR k) by (unfold k; rewrite INR_IZR_INZ, Z2Nat.id by exact Hz; exact Ar). clearbody k. specialize (U k). assert (C < 1 + INR k / 10) by lra. nra.
Qed.

(** C91 for the filters of the library. *)
From Coq Require Import ZArith Reals Lra Lia Psatz Bool List Arith.
From Verif Require Import Model.Num Model.Base Model.Filter Model.KalmanMatrix Model.Tracker Spec.KalmanSpec Spec.PointSpec Spec.FollowSpec Spec.SceneSpec Spec.NoisySpec.
From Verif Require Import Proofs.MatrixProofs Proofs.PointProofs Proofs.FilterTracker Proofs.KalmanProofs Proofs.KalmanTheorems Proofs.FollowProofs Proofs.FollowFilters Proofs.ReplayProofs Proofs.CallTheorems6 Proofs.SceneFilters Proofs.NoisyProofs Proofs.NoisyScene.
Import ListNotations.
Local Open Scope R_scope.

Section Generic.
Variable FO : filter_ops RNum.
Variables qp qv r a0 b0 d0 : R.
Hypothesis Hqp : 0 < qp.
Hypothesis Hqv : 0 < qv.
Hypothesis Hr : 0 < r.
Hypothesis Ha0 : 0 < a0.
Hypothesis Hd0 : 0 < d0.
Hypothesis Hdet : b0 * b0 < a0 * d0.
Variable Rel : nat -> nat -> fstate FO -> crd -> Prop.
Hypothesis Hstart : forall z0 k x, nth_error (flatten z0) k = Some x -> Rel (length (flatten z0)) k (f_create FO z0) (MkCoord (N := RNum) x 0 a0 b0 d0).
Hypothesis Hstep : forall d k f c m z, Rel d k f c -> pd c -> fits_dim d m -> nth_error (me_mask m) k = Some true -> nth_error (me_z m) k = Some z ->
  Rel d k (f_update FO (f_predict FO f) (me_z m) (map bit (me_mask m))) (c2_update r (c2_predict qp qv c) z 1).
Hypothesis Hout : forall d k f c, Rel d k f c -> nth_error (f_x FO f) k = Some (c_pos c) /\ nth_error (f_x FO f) (k + d) = Some (c_vel c).
Hypothesis Hpred : forall d k f c, Rel d k f c -> nth_error (f_x FO (f_predict FO f)) k = Some (c_pos c + c_vel c).

(** The velocity of the coordinate, its changes, and the measurement errors. *)
Definition vel (truth : nat -> R) (k : nat) : R := truth (S k) - truth k.
Lemma run_noisy d k eps truth ms f0 c0 : Rel d k f0 c0 -> pd c0 -> 0 <= eps -> Forall (fits_dim d) ms ->
  (forall j m, nth_error ms j = Some m -> nth_error (me_mask m) k = Some true /\ exists z, nth_error (me_z m) k = Some z /\ Rabs (z - truth (S j)) <= eps) ->
  exists n c', (forall j, Rabs (n j) <= eps) /\ Rel d k (fold_left (fun s m => f_update FO (f_predict FO s) (me_z m) (map bit (me_mask m))) ms f0) c' /\
    err_of (truth (length ms)) (vel truth (length ms)) c' = runE qp qv r (err_of (truth 0%nat) (vel truth 0) c0) (fun j => vel truth (S j) - vel truth j) n (length ms).
Proof.
  intros HR HP He. induction ms as [|m ms IH] using rev_ind; intros F Hm.
  - exists (fun _ => 0), c0. split; [intros _; rewrite Rabs_R0; exact He|]. split; [exact HR|reflexivity].
  - apply Forall_app in F as [F1 F2]. inversion F2 as [|? ? Fm _]; subst.
    destruct (IH F1) as (n & c' & Hn & HR' & E).
    { intros j m' Hj. apply Hm. rewrite nth_error_app1; [exact Hj|]. apply nth_error_Some. congruence. }
    destruct (Hm (length ms) m) as (M1 & z & M2 & Nz); [rewrite nth_error_app2, Nat.sub_diag by lia; reflexivity|].
    set (L := length ms) in *. set (n' := fun j => if (j <? L)%nat then n j else z - truth (S L)).
    assert (Pe : epd (err_of (truth L) (vel truth L) c')). { rewrite E. apply (run_epd qp qv r Hqp Hqv Hr). apply pd_epd, HP. }
    pose proof (proj1 (pd_epd _ _ _) Pe) as P'.
    exists n', (c2_update r (c2_predict qp qv c') z 1). split; [|split].
    + intros j. unfold n'. destruct (j <? L)%nat; auto.
    + rewrite fold_left_app. cbn [fold_left]. eapply Hstep; eauto.
    + rewrite app_length. cbn [length]. fold L. rewrite Nat.add_1_r. cbn [runE].
      assert (Q : forall j, (j <= L)%nat -> runE qp qv r (err_of (truth 0%nat) (vel truth 0) c0) (fun j => vel truth (S j) - vel truth j) n' j = runE qp qv r (err_of (truth 0%nat) (vel truth 0) c0) (fun j => vel truth (S j) - vel truth j) n j).
      { induction j as [|j IHj]; intros Hj; [reflexivity|]. cbn [runE]. rewrite IHj by lia. f_equal. unfold n'. destruct (Nat.ltb_spec j L); [reflexivity|lia]. }
      rewrite Q by lia. rewrite <- E. pose proof (noisy_step qp qv r (truth L) (vel truth L) (vel truth (S L) - vel truth L) (z - truth (S L)) c' Hqp Hqv Hr Pe) as X.
      replace (truth L + vel truth L) with (truth (S L)) in X by (unfold vel; ring).
      replace (vel truth L + (vel truth (S L) - vel truth L)) with (vel truth (S L)) in X by ring.
      replace (truth (S L) + (z - truth (S L))) with z in X by ring. rewrite X. f_equal. unfold n'. rewrite Nat.ltb_irrefl. reflexivity.
Qed.

Notation M := (uncertainty qp qv r a0 d0).
Lemma M_pos : 0 < M.
Proof. unfold uncertainty. apply (Rlt_le_trans _ (a0 + d0)); [lra|apply Rmax_l]. Qed.
Theorem generic_noisy v acc eps : 0 <= eps -> keeps_near FO (wanders v acc) eps (noisy_bound qp qv r a0 b0 d0 v acc eps).
Proof.
  intros He truth z0 ms k (Hv & Ha) (F & (z & Hz & Nz) & Hm) j.
  set (c0 := MkCoord (N := RNum) z 0 a0 b0 d0). assert (P0 : pd c0) by (unfold pd, c0; cbn; auto).
  destruct (run_noisy _ k eps truth ms _ c0 (Hstart z0 k z Hz) P0 He F Hm) as (n & c' & Hn & HR & E). fold j in E.
  set (x0 := err_of (truth 0%nat) (vel truth 0) c0) in *. assert (E0 : epd x0) by (apply pd_epd, P0).
  destruct (run_bounded qp qv r Hqp Hqv Hr M M_pos x0 E0 acc eps (fun j => vel truth (S j) - vel truth j) n) with (k := j) as (B1 & B2 & B3).
  { exact Ha. } { exact Hn. } { apply Rmax_l. } { apply Rmax_r. }
  assert (B : sqrt (2 * M) * (rho qp qv M ^ j * nrm x0 + (acc / sqrt qv + eps / sqrt r) / (1 - rho qp qv M)) <= noisy_bound qp qv r a0 b0 d0 v acc eps j).
  { unfold noisy_bound. change (fading qp qv r a0 d0) with (rho qp qv M). apply Rmult_le_compat_l; [apply sqrt_pos|]. apply Rplus_le_compat_r, Rmult_le_compat_l.
    - apply pow_le, (rho_bounds qp qv Hqp Hqv M M_pos).
    - eapply Rle_trans; [apply start_nrm; exact E0|]. apply Rplus_le_compat; apply Rmult_le_compat_r; try apply sqrt_pos; [exact Nz|].
      cbn. unfold vel. rewrite Rabs_minus_sym, Rminus_0_r. exact Hv. }
  rewrite <- E in B1, B2, B3. destruct (Hout _ _ _ _ HR) as [O1 O2]. unfold err_of in B1, B2, B3. cbn [e1 e2] in B1, B2, B3.
  exists (c_pos c'), (c_vel c'), (c_pos c' + c_vel c'). split; [split; assumption|]. split; [apply (Hpred _ _ _ _ HR)|].
  split; [lra|]. split; [unfold vel in B2; lra|].
  replace (c_pos c' + c_vel c' - truth (S j)) with (c_pos c' - truth j + (c_vel c' - vel truth j)) by (unfold vel; ring). lra.
Qed.
Lemma bound_decreases v acc eps k : 0 <= v -> 0 <= eps -> noisy_bound qp qv r a0 b0 d0 v acc eps k <= noisy_bound qp qv r a0 b0 d0 v acc eps 0.
Proof.
  intros Hv He. unfold noisy_bound. change (fading qp qv r a0 d0) with (rho qp qv M). destruct (rho_bounds qp qv Hqp Hqv M M_pos) as [R0 R1].
  apply Rmult_le_compat_l; [apply sqrt_pos|]. apply Rplus_le_compat_r. apply Rmult_le_compat_r.
  - apply Rplus_le_le_0_compat; apply Rmult_le_pos; auto; apply sqrt_pos.
  - cbn [pow]. induction k as [|k IH]; cbn [pow]; [lra|]. assert (0 <= rho qp qv M ^ k) by (apply pow_le, R0). nra.
Qed.
End Generic.

(* ---- the filters ---- *)
Section Optimized.
Variable p : okf_params RNum.
Hypothesis HR : 0 < kp_R p.
Hypothesis HQ : 0 < kp_Q p.
Hypothesis HP : start_pd p.
Notation bound := (noisy_bound (kp_Q p) (kp_Q p) (kp_R p) (kp_pos_variance p) (kp_pos_vel_covariance p) (kp_vel_variance p)).
Theorem okf_noisy v acc eps : 0 <= eps -> keeps_near (okf_ops p) (wanders v acc) eps (bound v acc eps).
Proof.
  intros He. destruct HP as (A & B & C). pose proof (Rlt_le _ _ HQ) as HQ'. eapply (generic_noisy (okf_ops p) (kp_Q p) (kp_Q p) (kp_R p) _ _ _ HQ HQ HR A B C (okf_rel p)); auto.
  - exact (okf_rel_start p).
  - exact (okf_rel_step p HR HQ').
  - exact (okf_rel_out p).
  - exact (okf_rel_pred p).
Qed.
Theorem okf_noisy_scenes v acc eps reach : 0 <= v -> 0 <= eps -> bound v acc eps 0%nat + eps <= reach ->
  follows_noisy_scenes (okf_ops p) (wanders v acc) eps reach (bound v acc eps).
Proof.
  intros Hv He Hre. apply (noisy_scenes_followed (FO := okf_ops p) okf_wf eq (okf_regular p) (okf_rewritable p okf_wf)); [apply okf_noisy; exact He|].
  intros k. destruct HP as (A & B & C). pose proof (bound_decreases (kp_Q p) (kp_Q p) (kp_R p) _ (kp_pos_vel_covariance p) _ HQ HQ A B v acc eps k Hv He). lra.
Qed.
End Optimized.

Section FilterPy.
Variable inv : nat -> mat -> mat.
Variable p : fp_params.
Hypothesis Hinv : inverts_diagonal inv.
Hypothesis HR : 0 < fp_R p.
Hypothesis HQ : 0 < fp_Q p.
Hypothesis HP : 0 < fp_P p.
Notation bound := (noisy_bound 1 (fp_Q p) (fp_R p) 1 0 (fp_P p)).
Theorem fp_noisy v acc eps : 0 <= eps -> keeps_near (fp_ops inv p) (wanders v acc) eps (bound v acc eps).
Proof.
  intros He. pose proof (Rlt_le _ _ HQ) as HQ'. eapply (generic_noisy (fp_ops inv p) 1 (fp_Q p) (fp_R p) 1 0 (fp_P p)) with (Rel := fp_rel p); auto; try lra.
  - exact (fp_rel_start p HP).
  - exact (fp_rel_step inv p Hinv HR HQ').
  - exact (fp_rel_out p).
  - exact (fp_rel_pred p).
Qed.
Theorem fp_noisy_scenes v acc eps reach : 0 <= v -> 0 <= eps -> bound v acc eps 0%nat + eps <= reach ->
  follows_noisy_scenes (fp_ops inv p) (wanders v acc) eps reach (bound v acc eps).
Proof.
  intros Hv He Hre. pose proof (Rlt_le _ _ HQ) as HQ'. apply (noisy_scenes_followed (FO := fp_ops inv p) (fp_wf p) fp_same (fp_regular inv p Hinv HR HQ' (Rlt_le _ _ HP)) (fp_rewritable inv p (fp_wf p))); [apply fp_noisy; exact He|].
  intros k. pose proof (bound_decreases 1 (fp_Q p) (fp_R p) 1 0 (fp_P p) ltac:(lra) HQ ltac:(lra) HP v acc eps k Hv He). lra.
Qed.
End FilterPy.

(* ---- NoFilter ---- *)
Lemma nf_path z k z0 ms : NoisyTracker.path_at z k z0 ms -> let f := filter_run (nofilter_ops RNum) z0 ms in
  nf_wf (length (flatten z0)) f /\ nth_error (nf_x f) k = Some (z (length ms)) /\
  nth_error (nf_x f) (k + length (flatten z0)) = Some 0.
Proof.
  induction ms as [|m ms IH] using rev_ind; intros (A & B & C); cbv zeta.
  - change (filter_run (nofilter_ops RNum) z0 []) with (nf_create z0). assert (Hk : (k < length (flatten z0))%nat) by (apply nth_error_Some; rewrite B; discriminate). unfold nf_wf, nf_create. cbn [nf_x nf_dim_z length].
    split; [split; [reflexivity|rewrite app_length, repeat_length; lia]|]. split.
    + rewrite nth_error_app1 by exact Hk. exact B.
    + rewrite nth_error_app2 by lia. replace (k + length (flatten z0) - length (flatten z0))%nat with k by lia. apply nth_error_repeat. exact Hk.
  - assert (M : NoisyTracker.path_at z k z0 ms).
    { split; [apply Forall_app in A; apply A|]. split; [exact B|]. intros j m' Hj. apply C. rewrite nth_error_app1; [exact Hj|]. apply nth_error_Some. congruence. }
    destruct (IH M) as ((W1 & W2) & E1 & E2). clear IH. unfold filter_run. rewrite fold_left_app. cbn [fold_left]. fold (filter_run (nofilter_ops RNum) z0 ms).
    set (f := filter_run (nofilter_ops RNum) z0 ms) in *. set (d := length (flatten z0)) in *.
    destruct (C (length ms) m) as [Cm Cz]; [rewrite nth_error_app2, Nat.sub_diag by lia; reflexivity|].
    apply Forall_app in A as [_ A]. inversion A as [|? ? [Lz Lm] _]; subst.
    assert (Hk : (k < d)%nat) by (unfold d; apply nth_error_Some; rewrite B; discriminate).
    assert (Ld : length (map2 (@nadd RNum) (map2 (@nmul RNum) (map bit (me_mask m)) (me_z m)) (map2 (@nmul RNum) (map (fun m0 : RNum => nsub n1 m0) (map bit (me_mask m))) (firstn d (nf_x f)))) = d).
    { rewrite !map2_length, !map_length, firstn_length. rewrite W2. change (Model.Num.num RNum) with R. rewrite Lm, Lz. lia. }
    cbn [nofilter_ops f_update f_predict nf_predict]. unfold nf_update, nf_predict. cbn [nf_x nf_dim_z]. rewrite W1.
    split; [split; [reflexivity|]|split].
    + cbn [nf_x]. rewrite app_length, Ld, skipn_length, W2. lia.
    + rewrite nth_error_app1 by (rewrite Ld; exact Hk).
      assert (X1 : nth_error (map bit (me_mask m)) k = Some (1 : RNum)) by (rewrite nth_error_map, Cm; reflexivity).
      assert (X2 : nth_error (map (fun m0 : RNum => nsub n1 m0) (map bit (me_mask m))) k = Some ((1 - 1) : RNum)) by (rewrite map_map, nth_error_map, Cm; reflexivity).
      assert (X3 : nth_error (firstn d (nf_x f)) k = Some (z (length ms) : RNum)) by (rewrite nth_error_firstn; destruct (Nat.ltb_spec k d); [exact E1|lia]).
      rewrite (nth_error_map2 (@nadd RNum) _ _ k _ _ (nth_error_map2 (@nmul RNum) _ _ k _ _ X1 Cz) (nth_error_map2 (@nmul RNum) _ _ k _ _ X2 X3)).
      rewrite app_length. cbn [length]. rewrite Nat.add_1_r. f_equal. cbn [nadd nmul RNum Model.Num.num]. change (Model.Num.num RNum) with R. set (t := z (S (length ms))). set (u := z (length ms)). exact (ltac:(ring) : 1 * t + (1 - 1) * u = t).
    + rewrite nth_error_app2 by (rewrite Ld; lia). rewrite Ld. replace (k + d - d)%nat with k by lia. rewrite nth_error_skipn, Nat.add_comm. exact E2.
Qed.
Lemma near_path eps truth k z0 ms : measured_near eps truth k z0 ms -> exists z, NoisyTracker.path_at z k z0 ms /\ forall j, (j <= length ms)%nat -> Rabs (z j - truth j) <= eps.
Proof.
  intros (A & (z & B & Nz) & C).
  exists (fun j => match j with O => z | S j => match nth_error ms j with Some m => nth k (me_z m) 0 | None => 0 end end). split; [split; [exact A|]; split; [exact B|]|].
  - intros j m Hj. destruct (C j m Hj) as (C1 & y & C2 & _). split; [exact C1|]. rewrite Hj, (nth_error_nth _ _ _ C2). exact C2.
  - intros [|j] Hj; [exact Nz|]. destruct (nth_error ms j) as [m|] eqn:E; [|apply nth_error_None in E; lia]. destruct (C j m E) as (_ & y & C2 & C3). rewrite (nth_error_nth _ _ _ C2). exact C3.
Qed.
Lemma nf_noisy v eps : 0 <= v -> 0 <= eps -> keeps_near (nofilter_ops RNum) (slow v) eps (fun _ => v + eps).
Proof.
  intros Hv He truth z0 ms k Hs Hm j. destruct (near_path _ _ _ _ _ Hm) as (z & Hz & Nz). destruct (nf_path z k z0 ms Hz) as (_ & E1 & E2).
  pose proof (Nz (length ms) (le_n _)) as Nj. fold j in Nj, E1. specialize (Hs j).
  exists (z j), 0, (z j). split; [split; [exact E1|exact E2]|]. split; [exact E1|]. split; [lra|]. split.
  - replace (0 - (truth (S j) - truth j)) with (- (truth (S j) - truth j)) by ring. rewrite Rabs_Ropp. lra.
  - replace (z j - truth (S j)) with ((z j - truth j) + - (truth (S j) - truth j)) by ring. eapply Rle_trans; [apply Rabs_triang|]. rewrite Rabs_Ropp. lra.
Qed.
Theorem nofilter_noisy_scenes v eps : 0 <= v -> 0 <= eps -> follows_noisy_scenes (nofilter_ops RNum) (slow v) eps (v + 2 * eps) (fun _ => v + eps).
Proof.
  intros Hv He. apply (noisy_scenes_followed (FO := nofilter_ops RNum) nf_wf eq nf_regular (nf_rewritable nf_wf)); [apply nf_noisy; auto|]. intros _. lra.
Qed.

(** The influence of the start fades. *)
Theorem bound_fades qp qv r a0 b0 d0 v acc eps eta : 0 < qp -> 0 < qv -> 0 < a0 -> 0 < d0 -> 0 < eta ->
  0 <= fading qp qv r a0 d0 < 1 /\
  exists k0, forall k, (k0 <= k)%nat ->
  noisy_bound qp qv r a0 b0 d0 v acc eps k <= sqrt (2 * uncertainty qp qv r a0 d0) * ((acc / sqrt qv + eps / sqrt r) / (1 - fading qp qv r a0 d0)) + eta.
Proof.
  intros Hqp Hqv Ha0 Hd0 He. pose proof (rho_bounds qp qv Hqp Hqv _ (M_pos qp qv r a0 d0 Ha0 Hd0)) as Rb. change (rho qp qv (uncertainty qp qv r a0 d0)) with (fading qp qv r a0 d0) in Rb.
  split; [exact Rb|]. unfold noisy_bound. set (f := fading qp qv r a0 d0) in *. set (s := sqrt (2 * _)). set (N0 := eps * _ + v * _). set (c := (acc / sqrt qv + eps / sqrt r) / (1 - f)).
  assert (Pa : 0 < Rabs (s * N0) + 1) by (pose proof (Rabs_pos (s * N0)); lra).
  destruct (pow_lt_1_zero f) with (y := eta / (Rabs (s * N0) + 1)) as [k0 Hk]; [rewrite Rabs_right by lra; lra|apply Rdiv_lt_0_compat; lra|].
  exists k0. intros k Hle. specialize (Hk k Hle). rewrite Rmult_plus_distr_l, Rplus_comm. apply Rplus_le_compat_l.
  rewrite Rabs_right in Hk by (apply Rle_ge, pow_le; lra).
  apply (Rmult_lt_compat_r (Rabs (s * N0) + 1)) in Hk; [|exact Pa]. replace (eta / (Rabs (s * N0) + 1) * (Rabs (s * N0) + 1)) with eta in Hk by (field; lra).
  assert (0 <= f ^ k) by (apply pow_le; lra). pose proof (Rle_abs (s * N0)) as L. apply (Rmult_le_compat_l (f ^ k)) in L; [|assumption]. lra.
Qed.

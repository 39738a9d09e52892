(** C111: the three filters treat all coordinates alike. *)
From Coq Require Import ZArith Reals Bool Arith List Lia Ring Lra Permutation.
From Verif Require Import Model.Num Model.Base Model.Filter Model.KalmanMatrix Model.Tracker Spec.KalmanSpec Spec.PointSpec Spec.CoordSpec
  Proofs.PointProofs Proofs.FilterTracker Proofs.KalmanProofs Proofs.KalmanTheorems Proofs.UnitLists Proofs.UnitFilters Proofs.CoordLists Proofs.CoordSim.
Import ListNotations.

Section F.
Context {N : Num}.
Variables dim n : nat.
Hypothesis Hdim : 0 < dim.
Variable order : list nat.
Hypothesis Ho : is_order dim n order.
Notation d := (dim * n).
Notation pick := (picks n0 order).

Lemma sized_flat (p : points N) : sized dim n p -> length (flatten p) = d.
Proof. intros [L F]. rewrite (rows_length dim Hdim _ F), L. reflexivity. Qed.
Lemma state_app (a b : list N) : length a = d -> state_in_order dim n order (a ++ b) = pick a ++ pick b.
Proof. intros L. unfold state_in_order. rewrite firstn_app, skipn_app, L, Nat.sub_diag. cbn [firstn skipn]. rewrite app_nil_r, firstn_all2, skipn_all2 by lia. reflexivity. Qed.
Lemma start_order (p : points N) : sized dim n p -> length (flatten (in_order dim order p)) = d /\
  flatten (in_order dim order p) ++ repeat n0 d = state_in_order dim n order (flatten p ++ repeat n0 d).
Proof.
  intros Sh. rewrite (flat_conv dim n Hdim order Ho p). split; [apply (picks_length _ _ Ho)|]. rewrite state_app by (apply sized_flat; auto).
  rewrite (picks_repeat _ _ Ho). reflexivity.
Qed.

(** ** NoFilter *)
Definition nf_rel (f f' : nofilter N) : Prop :=
  nf_dim_z f = d /\ nf_dim_z f' = d /\ length (nf_x f) = 2 * d /\ nf_x f' = state_in_order dim n order (nf_x f).
Lemma no_filter_in_order : filter_in_order (FO := nofilter_ops N) dim n order nf_rel.
Proof.
  split; cbn [fstate f_create f_predict f_update f_x f_set_x nofilter_ops].
  - intros p Sh. destruct (start_order p Sh) as [A B]. pose proof (sized_flat p Sh) as L. unfold nf_rel, nf_create. cbn [nf_dim_z nf_x]. rewrite A, L. rewrite app_length, repeat_length, L.
    repeat split; auto. lia.
  - intros f f' H. exact H.
  - intros f f' z (A & B & C & D) Lz. unfold nf_rel, nf_update. cbn [nf_dim_z nf_x]. rewrite A, B, D. destruct (state_parts dim n order Ho (nf_x f) C) as [X Y]. rewrite X, Y.
    assert (L0 : length (firstn d (nf_x f)) = d) by (rewrite firstn_length; lia).
    assert (L1 : length (map2 nadd (map2 nmul (repeat n1 d) z) (map2 nmul (map (fun m => nsub n1 m) (repeat n1 d)) (firstn d (nf_x f)))) = d).
    { rewrite !map2_len, map_length, repeat_length. lia. }
    split; [reflexivity|]. split; [reflexivity|]. split; [rewrite app_length, L1, skipn_length; lia|]. rewrite state_app by exact L1. f_equal.
    rewrite <- (picks_repeat d order Ho n1 n0) at 1 2. rewrite <- (picks_map d order Ho (fun m => nsub n1 m) n0 n0) by apply repeat_length.
    rewrite !(picks_map2 d order Ho nmul n0 n0 n0) by (rewrite ?map_length, ?repeat_length; auto).
    apply (picks_map2 d order Ho nadd n0 n0 n0); rewrite map2_len, ?map_length, repeat_length; lia.
  - intros f f' (A & B & C & D). auto.
  - intros f f' x (A & B & C & D) L. repeat split; auto.
Qed.

(** ** OptimizedKalmanFilter *)
Record okf_rel (f f' : okf N) : Prop := {
  kr_dim : k_dim_z f = d /\ k_dim_z f' = d;
  kr_len : length (k_pos_variance f) = d /\ length (k_pos_vel_covariance f) = d /\ length (k_vel_variance f) = d /\ length (k_default_r f) = d;
  kr_var : k_pos_variance f' = pick (k_pos_variance f) /\ k_pos_vel_covariance f' = pick (k_pos_vel_covariance f) /\ k_vel_variance f' = pick (k_vel_variance f);
  kr_par : k_q f' = k_q f /\ k_default_r f' = pick (k_default_r f);
  kr_x : length (k_x f) = 2 * d /\ k_x f' = state_in_order dim n order (k_x f)
}.
Definition c0 : coord N := MkCoord n0 n0 n0 n0 n0.
Lemma zip_nth : forall pos vel pv cov vv j, j < length pos -> j < length vel -> j < length pv -> j < length cov -> j < length vv ->
  nth j (@zip_coords N pos vel pv cov vv) c0 = MkCoord (nth j pos n0) (nth j vel n0) (nth j pv n0) (nth j cov n0) (nth j vv n0).
Proof. induction pos as [|a pos IH]; intros [|b vel] [|c pv] [|e cov] [|g vv] [|j]; cbn; intros; try lia; auto. apply IH; lia. Qed.
Lemma update_nth q : forall rs cs z m j, j < length rs -> j < length cs -> j < length z -> j < length m ->
  nth j (@update_coords N q rs cs z m) c0 = coord_update q (nth j rs n0) (nth j cs c0) (nth j z n0) (nth j m n0).
Proof. induction rs as [|r rs IH]; intros [|c cs] [|z zs] [|m ms] [|j]; cbn [length nth update_coords]; intros; try lia; auto. apply IH; lia. Qed.
Lemma zip_picks pos vel pv cov vv : length pos = d -> length vel = d -> length pv = d -> length cov = d -> length vv = d ->
  zip_coords (pick pos) (pick vel) (pick pv) (pick cov) (pick vv) = picks c0 order (zip_coords pos vel pv cov vv).
Proof.
  intros. unfold picks. pose proof (order_bound d order Ho) as B. clear Ho. induction B as [|j o Hj _ IH]; cbn [map zip_coords]; auto. rewrite IH. f_equal. symmetry. apply zip_nth; lia.
Qed.
Lemma update_picks q rs cs z m : length rs = d -> length cs = d -> length z = d -> length m = d ->
  update_coords q (pick rs) (picks c0 order cs) (pick z) (pick m) = picks c0 order (update_coords q rs cs z m).
Proof.
  intros. unfold picks. pose proof (order_bound d order Ho) as B. clear Ho. induction B as [|j o Hj _ IH]; cbn [map update_coords]; auto. rewrite IH. f_equal. symmetry. apply update_nth; lia.
Qed.
Lemma optimized_in_order (p : okf_params N) : filter_in_order (FO := okf_ops p) dim n order okf_rel.
Proof.
  split; cbn [fstate f_create f_predict f_update f_x f_set_x okf_ops].
  - intros q Sh. destruct (start_order q Sh) as [A B]. pose proof (sized_flat q Sh) as L. split; cbn.
    + auto.
    + rewrite !repeat_length. auto.
    + rewrite A, L, !(picks_repeat d order Ho). auto.
    + rewrite A, L, !(picks_repeat d order Ho). auto.
    + rewrite app_length, repeat_length, A, L. split; [lia|exact B].
  - intros f f' [[A1 A2] B C D [E1 E2]]. destruct (state_parts dim n order Ho (k_x f) E1) as [X Y].
    split; cbn; auto. rewrite A1, A2, E2, X, Y.
    assert (L : length (map2 nadd (firstn d (k_x f)) (skipn d (k_x f))) = d) by (rewrite map2_len, firstn_length, skipn_length; lia).
    split; [rewrite app_length, L, skipn_length; lia|]. rewrite state_app by exact L. f_equal.
    apply (picks_map2 d order Ho nadd n0 n0 n0); rewrite ?firstn_length, ?skipn_length; lia.
  - intros f f' z [[A1 A2] (B1 & B2 & B3 & B4) (C1 & C2 & C3) [D1 D2] [E1 E2]] Lz. destruct (state_parts dim n order Ho (k_x f) E1) as [X Y].
    assert (Lc : length (okf_coords f) = d) by (unfold okf_coords; apply (zip_len dim Hdim); auto; rewrite ?A1; rewrite ?firstn_length, ?skipn_length; lia).
    assert (EC : okf_coords f' = picks c0 order (okf_coords f)).
    { unfold okf_coords. rewrite A1, A2, C1, C2, C3, E2, X, Y. apply zip_picks; auto; rewrite ?firstn_length, ?skipn_length; lia. }
    assert (EU : update_coords (k_q f) (pick (k_default_r f)) (picks c0 order (okf_coords f)) (pick z) (repeat n1 d) =
      picks c0 order (update_coords (k_q f) (k_default_r f) (okf_coords f) z (repeat n1 d))).
    { rewrite <- (update_picks (k_q f)) by (auto; apply repeat_length). rewrite (picks_repeat d order Ho). reflexivity. }
    unfold okf_update. rewrite EC, D1, D2, A1, A2, EU.
    assert (L : length (update_coords (k_q f) (k_default_r f) (okf_coords f) z (repeat n1 d)) = d) by (apply (update_len dim Hdim); auto; apply repeat_length).
    set (cs := update_coords (k_q f) (k_default_r f) (okf_coords f) z (repeat n1 d)) in *. clearbody cs.
    split; cbn; rewrite ?map_length; auto.
    + repeat split; symmetry; apply (picks_map d order Ho); exact L.
    + split; [rewrite app_length, !map_length; lia|]. rewrite state_app by (rewrite map_length; exact L). f_equal; symmetry; apply (picks_map d order Ho); exact L.
  - intros f f' H. apply (kr_x _ _ H).
  - intros f f' x [A B C D E] L. split; cbn; auto.
Qed.
End F.

(** ** FilterPyKalmanFilter *)
Section FP.
Variable inv : nat -> mat -> mat.
Variable p : fp_params.
Hypothesis Hinv : inverts_diagonal inv.
Local Open Scope R_scope.
Hypothesis HR : 0 < fp_R p.
Hypothesis HQ : 0 <= fp_Q p.
Hypothesis HP : 0 <= fp_P p.
Variables dim n : nat.
Hypothesis Hdim : (0 < dim)%nat.
Variable order : list nat.
Hypothesis Ho : is_order dim n order.
Notation d := (dim * n)%nat.
Notation at_ k := (nth k order 0%nat).
Definition fp_rel (f f' : fp_filter) : Prop :=
  fpf_dim_z f = d /\ fpf_dim_z f' = d /\ fpf_params f = p /\ fpf_params f' = p /\
  exists c, like d c (fpf_state f) /\ like d (fun k => c (at_ k)) (fpf_state f') /\ forall k, (k < d)%nat -> qpsd (c k).
Lemma at_bound k : (k < d)%nat -> (at_ k < d)%nat.
Proof.
  intros H. pose proof (order_bound d order Ho) as B. rewrite Forall_forall in B. apply B. apply nth_In. rewrite (order_length d order Ho). exact H.
Qed.
Lemma nth_picks (l : list R) k : (k < d)%nat -> nth k (picks (@n0 RNum) order l) 0 = nth (at_ k) l 0.
Proof.
  intros H. unfold picks. rewrite (nth_indep _ 0 (nth 0 l (@n0 RNum))) by (rewrite map_length, (order_length d order Ho); exact H).
  exact (map_nth (fun j => nth j l (@n0 RNum)) order 0%nat k).
Qed.
Lemma state_nth (x : list R) k : length x = (2 * d)%nat -> (k < d)%nat ->
  nth k (state_in_order (N := RNum) dim n order x) 0 = nth (at_ k) x 0 /\ nth (k + d) (state_in_order (N := RNum) dim n order x) 0 = nth (at_ k + d) x 0.
Proof.
  intros L Hk. pose proof (at_bound k Hk) as Hb. unfold state_in_order.
  assert (L1 : length (firstn d x) = d) by (rewrite firstn_length; lia). assert (L2 : length (skipn d x) = d) by (rewrite skipn_length; lia).
  assert (Lp : forall l : list R, length (picks (@n0 RNum) order l) = d) by (intros l; apply (picks_length d order Ho)).
  split.
  - etransitivity; [apply app_nth1; rewrite Lp; exact Hk|]. rewrite nth_picks by exact Hk.
    assert (E : nth (at_ k) (firstn d x ++ skipn d x) 0 = nth (at_ k) (firstn d x) 0) by (apply app_nth1; lia). rewrite firstn_skipn in E. rewrite E. reflexivity.
  - etransitivity; [apply app_nth2; rewrite Lp; lia|]. rewrite Lp. replace (k + d - d)%nat with k by lia. rewrite nth_picks by exact Hk.
    assert (E : nth (at_ k + d) (firstn d x ++ skipn d x) 0 = nth (at_ k + d - length (firstn d x)) (skipn d x) 0) by (apply app_nth2; lia). rewrite firstn_skipn in E. rewrite E.
    replace (at_ k + d - length (firstn d x))%nat with (at_ k) by lia. reflexivity.
Qed.
Lemma ones_nth k : (k < d)%nat -> nth k (repeat 1 d) 0 = 1.
Proof. intros H. apply repeat_nth. exact H. Qed.
Lemma filterpy_in_order : filter_in_order (FO := fp_ops inv p) dim n order fp_rel.
Proof.
  split; cbn [fstate f_create f_predict f_update f_x f_set_x fp_ops].
  - intros q Sh. assert (L := sized_flat dim n Hdim q Sh). assert (Lq : length (flatten (in_order (N := RNum) dim order q)) = d) by (rewrite (flat_conv dim n Hdim order Ho q); apply (picks_length d order Ho)).
    unfold fp_rel. split; [exact L|]. split; [exact Lq|]. split; [reflexivity|]. split; [reflexivity|].
    exists (fun k => MkCoord (N := RNum) (nth k (flatten (N := RNum) q) 0) 0 1 0 (fp_P p)). split; [rewrite <- L; apply (create_like p dim Hdim)|]. split.
    + pose proof (create_like p dim Hdim (in_order dim order q)) as X. rewrite Lq in X. eapply like_ext; [|exact X]. intros k Hk. cbn beta. f_equal.
      rewrite (flat_conv dim n Hdim order Ho q). apply nth_picks, Hk.
    + intros k Hk a w. cbn. pose proof (Rle_0_sqr a) as U. pose proof (Rle_0_sqr w) as W. unfold Rsqr in *.
      assert (0 <= fp_P p * (w * w)) by (apply Rmult_le_pos; lra). lra.
  - intros f f' (A & A' & B & B' & c & L & L' & Q). unfold fp_rel, fp_predict. cbn. rewrite A, A', B, B'. repeat split; auto.
    exists (fun k => c2_predict 1 (fp_Q p) (c k)). split; [apply kf_predict_like; auto; intros i j _ _; reflexivity|]. split.
    + eapply like_ext; [|apply kf_predict_like; [intros i j _ _; reflexivity|exact L']]. intros k Hk. reflexivity.
    + intros k Hk. apply c2_predict_qpsd; auto. lra.
  - intros f f' z (A & A' & B & B' & c & L & L' & Q) Lz. unfold fp_rel, fp_update. cbn [fpf_dim_z fpf_params fpf_state]. rewrite A, A', B, B'.
    change (repeat (@n1 RNum) d) with (repeat 1 d). set (dg := repeat 1 d). assert (Ld : length dg = d) by apply repeat_length.
    repeat split; auto. exists (fun k => c2_update (fp_R p) (c k) (nth k z 0) (nth k dg 0)). split.
    { apply kf_update_like; auto. intros k Hk. apply c2_S; auto. } split.
    + eapply like_ext; [|apply kf_update_like; [exact Hinv|exact Ld|exact L'|]]; cbn beta.
      * intros k Hk. rewrite nth_picks by exact Hk. unfold dg. rewrite !ones_nth by (auto; apply at_bound, Hk). reflexivity.
      * intros k Hk. apply c2_S; auto. apply Q, at_bound, Hk.
    + intros k Hk. apply c2_update_qpsd; auto.
  - intros f f' (A & A' & B & B' & c & L & L' & Q). unfold fp_x. rewrite A, A'. split; [rewrite map_length, seq_length; reflexivity|].
    assert (LL : length (map (kx (fpf_state f)) (seq 0 (2 * d))) = (2 * d)%nat) by (rewrite map_length, seq_length; reflexivity).
    assert (E : forall g m k, (k < m)%nat -> nth k (map g (seq 0 m)) 0 = g k).
    { intros g m k Hk. rewrite (nth_indep _ 0 (g 0%nat)) by (rewrite map_length, seq_length; exact Hk). rewrite map_nth, seq_nth by exact Hk. reflexivity. }
    apply (nth_ext _ _ 0 0); [rewrite map_length, seq_length; unfold state_in_order; rewrite app_length, !(picks_length d order Ho); lia|].
    intros k Hk. rewrite map_length, seq_length in Hk. rewrite E by exact Hk.
    destruct (lt_dec k d) as [Hd|Hd].
    + pose proof (at_bound k Hd). etransitivity; [|symmetry; exact (proj1 (state_nth _ k LL Hd))]. rewrite E by lia. rewrite (lk_pos _ _ _ L' k Hd), (lk_pos _ _ _ L (at_ k)) by auto. reflexivity.
    + assert (Hd' : (k - d < d)%nat) by lia. pose proof (at_bound _ Hd'). replace k with (k - d + d)%nat by lia. etransitivity; [|symmetry; exact (proj2 (state_nth _ (k - d) LL Hd'))].
      rewrite E by lia. rewrite (lk_vel _ _ _ L' _ Hd'), (lk_vel _ _ _ L (at_ (k - d))) by auto. reflexivity.
  - intros f f' x (A & A' & B & B' & c & L & L' & Q) Lx. unfold fp_rel, fp_set_x. cbn. rewrite A, A'. repeat split; auto.
    exists (fun k => MkCoord (N := RNum) (nth k x 0) (nth (k + d) x 0) (c_pv (c k)) (c_cov (c k)) (c_vv (c k))). split; [split; cbn; auto; apply (lk_P _ _ _ L)|].
    split; [|exact Q]. split; cbn; [| |apply (lk_P _ _ _ L')]; intros k Hk; apply (state_nth x k Lx Hk).
Qed.
End FP.

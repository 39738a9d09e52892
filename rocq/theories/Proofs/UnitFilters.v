(** C93: the three filters work the same in other coordinates. *)
From Coq Require Import ZArith Reals Bool Arith List Lia Ring Lra.
From Verif Require Import Model.Num Model.Base Model.Filter Model.KalmanMatrix Model.Tracker Spec.KalmanSpec Spec.PointSpec Spec.UnitSpec
  Proofs.PointProofs Proofs.FilterTracker Proofs.KalmanProofs Proofs.KalmanTheorems Proofs.UnitLists Proofs.UnitSim.
Import ListNotations.

Section F.
Context {N : Num} (rg : ring_theory (@n0 N) n1 nadd nmul nsub (fun x => nsub n0 x) eq).
Variable dim : nat.
Hypothesis Hdim : 0 < dim.
Variable u : units N.
Add Ring unit_ring : rg.
Notation F := (fun j x => nadd (nmul (u_scale u (j mod dim)) x) (u_shift u (j mod dim))).
Notation V := (fun j x => nmul (u_scale u (j mod dim)) x).

Lemma start_units p : shaped dim p -> flatten (in_units u p) ++ repeat n0 (length (flatten (in_units u p))) =
  state_in_units dim u (length (flatten p)) (flatten p ++ repeat n0 (length (flatten p))).
Proof.
  intros Sh. rewrite (flat_conv dim Hdim u p Sh). set (z := flatten p). unfold state_in_units. rewrite firstn_app, skipn_app, Nat.sub_diag. cbn [firstn skipn].
  rewrite app_nil_r, firstn_all, skipn_all. cbn [app]. unfold flat_in_units at 2. rewrite em_length. f_equal. unfold flat_velocity. generalize 0.
  induction (length z) as [|n IH]; intros k; cbn; auto. f_equal; [ring|apply IH].
Qed.
Lemma state_first d x : length x = 2 * d -> firstn d (state_in_units dim u d x) = flat_in_units dim u (firstn d x) /\ skipn d (state_in_units dim u d x) = flat_velocity dim u (skipn d x).
Proof.
  intros L. unfold state_in_units. assert (E : length (flat_in_units dim u (firstn d x)) = d) by (unfold flat_in_units; rewrite em_length, firstn_length; lia).
  rewrite firstn_app, skipn_app, E, Nat.sub_diag. cbn [firstn skipn]. rewrite app_nil_r, firstn_all2, skipn_all2 by lia. auto.
Qed.
Lemma state_app d (a b : list N) : length a = d -> state_in_units dim u d (a ++ b) = flat_in_units dim u a ++ flat_velocity dim u b.
Proof.
  intros L. unfold state_in_units. rewrite firstn_app, skipn_app, L, Nat.sub_diag. cbn [firstn skipn]. rewrite app_nil_r, firstn_all2, skipn_all2 by lia. reflexivity.
Qed.

(** ** NoFilter *)
Definition nf_rel (d : nat) (f f' : nofilter N) : Prop :=
  nf_dim_z f = d /\ nf_dim_z f' = d /\ length (nf_x f) = 2 * d /\ nf_x f' = state_in_units dim u d (nf_x f).
Lemma mix_units : forall (m z x : list N) k,
  map2 nadd (map2 nmul m (enum_map F k z)) (map2 nmul (map (fun m => nsub n1 m) m) (enum_map F k x)) =
  enum_map F k (map2 nadd (map2 nmul m z) (map2 nmul (map (fun m => nsub n1 m) m) x)).
Proof.
  induction m as [|a m IH]; intros [|b z] [|c x] k; try reflexivity. unfold map2 in *. cbn [map combine enum_map fst snd]. rewrite <- IH. f_equal. ring.
Qed.
Lemma map2_len {A B C} (op : A -> B -> C) l l' : length (map2 op l l') = Nat.min (length l) (length l').
Proof. unfold map2. rewrite map_length. apply combine_length. Qed.
Lemma no_filter_in_units : filter_in_units (FO := nofilter_ops N) dim u nf_rel.
Proof.
  split; cbn [fstate f_create f_predict f_update f_x f_set_x nofilter_ops].
  - intros p Sh. unfold nf_rel, nf_create. cbn. rewrite <- start_units by auto. rewrite (flat_conv dim Hdim u p Sh), cflat_length. rewrite app_length, repeat_length. repeat split. lia.
  - intros d f f' H. exact H.
  - intros d f f' z mask (A & B & C & D) Lz Lm. unfold nf_rel, nf_update. cbn [nf_dim_z nf_x]. rewrite A, B, D. destruct (state_first d (nf_x f) C) as [X Y]. rewrite X, Y.
    set (dg := map (fun m : bool => if m then n1 else n0) mask). assert (Ld : length dg = d) by (unfold dg; rewrite map_length; auto).
    assert (L1 : length (map2 nadd (map2 nmul dg z) (map2 nmul (map (fun m => nsub n1 m) dg) (firstn d (nf_x f)))) = d).
    { rewrite !map2_len, map_length, firstn_length. lia. }
    split; [reflexivity|]. split; [reflexivity|]. split; [rewrite app_length, L1, skipn_length; lia|]. rewrite state_app by exact L1. f_equal. apply mix_units.
  - intros d f f' (A & B & C & D). auto.
  - intros d f f' x (A & B & C & D) L. repeat split; auto.
Qed.

(** ** OptimizedKalmanFilter *)
Record okf_rel (d : nat) (f f' : okf N) : Prop := {
  kr_dim : k_dim_z f = d /\ k_dim_z f' = d;
  kr_len : length (k_pos_variance f) = d /\ length (k_pos_vel_covariance f) = d /\ length (k_vel_variance f) = d /\ length (k_default_r f) = d;
  kr_var : k_pos_variance f' = k_pos_variance f /\ k_pos_vel_covariance f' = k_pos_vel_covariance f /\ k_vel_variance f' = k_vel_variance f;
  kr_par : k_q f' = k_q f /\ k_default_r f' = k_default_r f;
  kr_x : length (k_x f) = 2 * d /\ k_x f' = state_in_units dim u d (k_x f)
}.
Definition cc (j : nat) (c : coord N) : coord N := MkCoord (F j (c_pos c)) (V j (c_vel c)) (c_pv c) (c_cov c) (c_vv c).
Lemma zip_units : forall pos vel pv cov vv k, zip_coords (enum_map F k pos) (enum_map V k vel) pv cov vv = enum_map cc k (zip_coords pos vel pv cov vv).
Proof. induction pos as [|a pos IH]; intros [|b vel] [|c pv] [|e cov] [|g vv] k; cbn; auto. f_equal. apply IH. Qed.
Lemma update_units q : forall rs cs z m k, update_coords q rs (enum_map cc k cs) (enum_map F k z) m = enum_map cc k (update_coords q rs cs z m).
Proof.
  induction rs as [|r rs IH]; intros [|c cs] [|z zs] [|m ms] k; cbn [update_coords enum_map]; auto. f_equal; [|apply IH].
  unfold cc, coord_update. cbn [c_pos c_vel c_pv c_cov c_vv]. f_equal; ring.
Qed.
Lemma map_em {A B C D} (f : nat -> A -> B) (g : B -> C) (g' : A -> D) (h : nat -> D -> C) : (forall k x, g (f k x) = h k (g' x)) -> forall l k,
  map g (enum_map f k l) = enum_map h k (map g' l).
Proof. intros E. induction l as [|x l IH]; intros k; cbn; auto. rewrite E, IH. reflexivity. Qed.
Lemma map_em_same {A B C} (f : nat -> A -> B) (g : B -> C) (g' : A -> C) : (forall k x, g (f k x) = g' x) -> forall l k, map g (enum_map f k l) = map g' l.
Proof. intros E. induction l as [|x l IH]; intros k; cbn; auto. rewrite E, IH. reflexivity. Qed.
Lemma zip_len : forall (pos vel pv cov vv : list N) d, length pos = d -> length vel = d -> length pv = d -> length cov = d -> length vv = d -> length (zip_coords pos vel pv cov vv) = d.
Proof. induction pos as [|a pos IH]; intros [|b vel] [|c pv] [|e cov] [|g vv] d; cbn; intros; try lia. destruct d as [|d]; [lia|]. f_equal. apply IH; lia. Qed.
Lemma update_len q : forall rs cs z m d, length rs = d -> length cs = d -> length z = d -> length m = d -> length (@update_coords N q rs cs z m) = d.
Proof. induction rs as [|r rs IH]; intros [|c cs] [|z zs] [|m ms] d; cbn; intros; try lia. destruct d as [|d]; [lia|]. f_equal. apply IH; lia. Qed.
Lemma optimized_in_units (p : okf_params N) : filter_in_units (FO := okf_ops p) dim u okf_rel.
Proof.
  split; cbn [fstate f_create f_predict f_update f_x f_set_x okf_ops].
  - intros q Sh. assert (L : length (flatten (in_units u q)) = length (flatten q)) by (rewrite (flat_conv dim Hdim u q Sh); apply cflat_length).
    split; cbn.
    + auto.
    + rewrite !repeat_length. auto.
    + rewrite L. auto.
    + rewrite L. auto.
    + rewrite app_length, repeat_length. split; [lia|]. apply start_units, Sh.
  - intros d f f' [[A1 A2] B C D [E1 E2]]. destruct (state_first d (k_x f) E1) as [X Y].
    split; cbn; auto. rewrite A1, A2, E2, X, Y.
    assert (L : length (map2 nadd (firstn d (k_x f)) (skipn d (k_x f))) = d) by (rewrite map2_len, firstn_length, skipn_length; lia).
    split; [rewrite app_length, L, skipn_length; lia|]. rewrite state_app by exact L. f_equal. unfold flat_in_units, flat_velocity. apply em_map2. intros k a b. ring.
  - intros d f f' z mask [[A1 A2] (B1 & B2 & B3 & B4) (C1 & C2 & C3) [D1 D2] [E1 E2]] Lz Lm. destruct (state_first d (k_x f) E1) as [X Y].
    set (dg := map (fun m : bool => if m then n1 else n0) mask). assert (Ld : length dg = d) by (unfold dg; rewrite map_length; auto).
    assert (EC : okf_coords f' = enum_map cc 0 (okf_coords f)).
    { unfold okf_coords. rewrite A1, A2, C1, C2, C3, E2, X, Y. apply zip_units. }
    unfold okf_update. rewrite EC, D1, D2, A1, A2. unfold flat_in_units. rewrite update_units.
    assert (L : length (update_coords (k_q f) (k_default_r f) (okf_coords f) z dg) = d).
    { apply update_len; auto. unfold okf_coords. apply zip_len; auto; rewrite ?firstn_length, ?skipn_length; lia. }
    set (cs := update_coords (k_q f) (k_default_r f) (okf_coords f) z dg) in *. clearbody cs.
    split; cbn; rewrite ?map_length; auto.
    + repeat split; apply map_em_same; reflexivity.
    + split; [rewrite app_length, !map_length; lia|]. rewrite state_app by (rewrite map_length; exact L). f_equal; apply map_em; reflexivity.
  - intros d f f' H. apply (kr_x _ _ _ H).
  - intros d f f' x [A B C D E] L. split; cbn; auto.
Qed.
End F.

(** ** FilterPyKalmanFilter *)
Section FP.
Variable inv : nat -> mat -> mat.
Variable p : fp_params.
Hypothesis Hinv : inverts_diagonal inv.
Local Open Scope R_scope.
Hypothesis HR : 0 < fp_R p.
Hypothesis HQ : 0 <= fp_Q p.
Hypothesis HP : 0 <= fp_P p.
Variable dim : nat.
Hypothesis Hdim : (0 < dim)%nat.
Variable u : units RNum.
Notation sc j := (u_scale u (j mod dim) : R).
Notation sh j := (u_shift u (j mod dim) : R).
(** The measurement of a sensor that is switched off is not multiplied by H, so that the residual of the two filters
    differs there; its gain is zero. *)
Definition ccr (j : nat) (c : coord RNum) : coord RNum := MkCoord (N := RNum) (sc j * c_pos c + sh j) (sc j * c_vel c) (c_pv c) (c_cov c) (c_vv c).
Definition fp_rel (d : nat) (f f' : fp_filter) : Prop :=
  fpf_dim_z f = d /\ fpf_dim_z f' = d /\ fpf_params f = p /\ fpf_params f' = p /\
  exists c, like d c (fpf_state f) /\ like d (fun k => ccr k (c k)) (fpf_state f') /\ forall k, (k < d)%nat -> qpsd (c k).
Lemma nth_em (f : nat -> R -> R) (l : list R) k i : (i < length l)%nat -> nth i (enum_map f k l) 0 = f (k + i)%nat (nth i l 0).
Proof.
  intros H. apply nth_error_nth. rewrite em_nth_error. rewrite (nth_error_nth' l 0) by exact H. reflexivity.
Qed.
Lemma c2_update_units r j c z (b : bool) : 0 < r -> qpsd c -> c2_update r (ccr j c) (sc j * z + sh j) (if b then 1 else 0) = ccr j (c2_update r c z (if b then 1 else 0)).
Proof.
  intros Hr Hc. unfold c2_update, ccr. cbn [c_pos c_vel c_pv c_cov c_vv]. destruct b; f_equal; ring.
Qed.
Lemma create_like (z : points RNum) : like (length (flatten z)) (fun k => MkCoord (N := RNum) (nth k (flatten (N := RNum) z) 0) 0 1 0 (fp_P p)) (fpf_state (fp_create p z)).
Proof.
  split.
  - intros k Hk. apply Nat.ltb_lt in Hk. exact (f_equal (fun b : bool => if b then nth k (flatten z) 0 else 0) Hk).
  - intros k Hk. assert (X : Nat.ltb (k + length (flatten z)) (length (flatten z)) = false) by (apply Nat.ltb_ge; lia).
    exact (f_equal (fun b : bool => if b then nth (k + length (flatten z)) (flatten z) 0 else 0) X).
  - cbn. intros i j Hi Hj. rewrite Q_blk by auto. reflexivity.
Qed.
Lemma state_nth d (x : list R) k : length x = (2 * d)%nat -> (k < d)%nat ->
  nth k (state_in_units dim u d x) 0 = sc k * nth k x 0 + sh k /\ nth (k + d) (state_in_units dim u d x) 0 = sc k * nth (k + d) x 0.
Proof.
  intros L Hk. unfold state_in_units, flat_in_units, flat_velocity.
  assert (L1 : length (firstn d x) = d) by (rewrite firstn_length; lia). assert (L2 : length (skipn d x) = d) by (rewrite skipn_length; lia).
  split.
  - rewrite app_nth1 by (rewrite em_length; cbn in *; lia). rewrite (nth_em (fun j x => sc j * x + sh j)) by (cbn in *; lia). cbn [Nat.add].
    assert (E : nth k (firstn d x ++ skipn d x) 0 = nth k (firstn d x) 0) by (apply app_nth1; lia). rewrite firstn_skipn in E. rewrite E. reflexivity.
  - rewrite app_nth2 by (rewrite em_length; cbn in *; lia). rewrite em_length. match goal with |- context [(k + d - ?n)%nat] => replace (k + d - n)%nat with k by (cbn in *; lia) end.
    rewrite (nth_em (fun j x => sc j * x)) by (cbn in *; lia). cbn [Nat.add].
    assert (E : nth (k + d) (firstn d x ++ skipn d x) 0 = nth (k + d - length (firstn d x)) (skipn d x) 0) by (apply app_nth2; lia). rewrite firstn_skipn in E. rewrite E.
    replace (k + d - length (firstn d x))%nat with k by lia. reflexivity.
Qed.
Lemma filterpy_in_units : filter_in_units (FO := fp_ops inv p) dim u fp_rel.
Proof.
  split; cbn [fstate f_create f_predict f_update f_x f_set_x fp_ops].
  - intros q Sh. assert (Lq : length (flatten (in_units u q)) = length (flatten q)) by (rewrite (flat_conv dim Hdim u q Sh); apply cflat_length).
    unfold fp_rel. split; [reflexivity|]. split; [exact Lq|]. split; [reflexivity|]. split; [reflexivity|].
    exists (fun k => MkCoord (N := RNum) (nth k (flatten (N := RNum) q) 0) 0 1 0 (fp_P p)). split; [apply create_like|]. split.
    + pose proof (create_like (in_units u q)) as X. rewrite Lq in X. eapply like_ext; [|exact X]. intros k Hk. unfold ccr. cbn [c_pos c_vel c_pv c_cov c_vv]. f_equal; [|ring].
      rewrite (flat_conv dim Hdim u q Sh). unfold flat_in_units. rewrite (nth_em (fun j x => sc j * x + sh j)) by exact Hk. reflexivity.
    + intros k Hk a w. cbn. pose proof (Rle_0_sqr a) as U. pose proof (Rle_0_sqr w) as W. unfold Rsqr in *.
      assert (0 <= fp_P p * (w * w)) by (apply Rmult_le_pos; lra). lra.
  - intros d f f' (A & A' & B & B' & c & L & L' & Q). unfold fp_rel, fp_predict. cbn. rewrite A, A', B, B'. repeat split; auto.
    exists (fun k => c2_predict 1 (fp_Q p) (c k)). split; [apply kf_predict_like; auto; intros i j _ _; reflexivity|]. split.
    + eapply like_ext; [|apply kf_predict_like; [intros i j _ _; reflexivity|exact L']]. intros k Hk. unfold c2_predict, ccr. cbn. f_equal. ring.
    + intros k Hk. apply c2_predict_qpsd; auto. lra.
  - intros d f f' z mask (A & A' & B & B' & c & L & L' & Q) Lz Lm. unfold fp_rel, fp_update. cbn. rewrite A, A', B, B'.
    set (dg := map (fun m : bool => if m then 1 else 0) mask). assert (Ld : length dg = d) by (unfold dg; rewrite map_length; auto).
    repeat split; auto. exists (fun k => c2_update (fp_R p) (c k) (nth k z 0) (nth k dg 0)). split.
    { apply kf_update_like; auto. intros k Hk. apply c2_S; auto. } split.
    + eapply like_ext; [|apply kf_update_like; [exact Hinv|exact Ld|exact L'|]]; cbn beta.
      * intros k Hk. unfold flat_in_units. rewrite (nth_em (fun j x => sc j * x + sh j)) by (cbn in *; lia).
        assert (E : exists b : bool, nth k dg 0 = if b then 1 else 0).
        { unfold dg. exists (nth k mask false). rewrite <- (map_nth (fun m : bool => if m then 1 else 0) mask false k). reflexivity. }
        destruct E as [b ->]. apply c2_update_units; auto.
      * intros k Hk. apply (c2_S (fp_R p) (c k)); auto.
    + intros k Hk. apply c2_update_qpsd; auto.
  - intros d f f' (A & A' & B & B' & c & L & L' & Q). unfold fp_x. rewrite A, A'. split; [rewrite map_length, seq_length; reflexivity|].
    assert (LL : length (map (kx (fpf_state f)) (seq 0 (2 * d))) = (2 * d)%nat) by (rewrite map_length, seq_length; reflexivity).
    assert (E : forall g n k, (k < n)%nat -> nth k (map g (seq 0 n)) 0 = g k).
    { intros g n k Hk. rewrite (nth_indep _ 0 (g 0%nat)) by (rewrite map_length, seq_length; exact Hk). rewrite map_nth, seq_nth by exact Hk. reflexivity. }
    apply (nth_ext _ _ 0 0); [rewrite map_length, seq_length; unfold state_in_units, flat_in_units, flat_velocity; rewrite app_length, !em_length, firstn_length, skipn_length; cbn in *; lia|].
    intros k Hk. rewrite map_length, seq_length in Hk. rewrite E by exact Hk.
    destruct (lt_dec k d) as [Hd|Hd].
    + etransitivity; [|symmetry; exact (proj1 (state_nth d _ k LL Hd))]. rewrite E by exact Hk. rewrite (lk_pos _ _ _ L' k Hd), (lk_pos _ _ _ L k Hd). reflexivity.
    + assert (Hd' : (k - d < d)%nat) by lia. replace k with (k - d + d)%nat by lia. etransitivity; [|symmetry; exact (proj2 (state_nth d _ (k - d) LL Hd'))].
      rewrite E by lia. rewrite (lk_vel _ _ _ L' _ Hd'), (lk_vel _ _ _ L _ Hd'). reflexivity.
  - intros d f f' x (A & A' & B & B' & c & L & L' & Q) Lx. unfold fp_rel, fp_set_x. cbn. rewrite A, A'. repeat split; auto.
    exists (fun k => MkCoord (N := RNum) (nth k x 0) (nth (k + d) x 0) (c_pv (c k)) (c_cov (c k)) (c_vv (c k))). split; [split; cbn; auto; apply (lk_P _ _ _ L)|].
    split; [|exact Q]. split; cbn; [| |apply (lk_P _ _ _ L')]; intros k Hk; apply (state_nth d x k Lx Hk).
Qed.
End FP.

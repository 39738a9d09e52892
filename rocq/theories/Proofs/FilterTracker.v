(** Facts about the filters of norfair inside the tracker: C25, C26, C35, C37. *)
From Coq Require Import ZArith Bool Lia Reals Lra List Arith.
From Verif Require Import Model.Num Model.Base Model.Matching Model.Filter Model.Tracker Spec.MatchingSpec.
From Verif Require Import Proofs.NumLaws Proofs.TrackerFrame Proofs.Identity Proofs.Effect Proofs.CallEffect Proofs.CallProps Proofs.CallTheorems
  Proofs.CallTheorems2 Proofs.CallTheorems6 Proofs.PointProofs.
From Verif Require Import Spec.CallSpec Spec.PointSpec.
Import ListNotations.
Local Open Scope nat_scope.

(* ---- shapes of the filters, for any numbers ---- *)
Section Shapes.
Context {N : Num}.

Definition nf_wf (d : nat) (f : fstate (nofilter_ops N)) : Prop := nf_dim_z f = d /\ length (nf_x f) = 2 * d.
Lemma nf_regular : regular (nofilter_ops N) nf_wf.
Proof.
  split; cbn.
  - intros p. split; cbn; auto. rewrite app_length, repeat_length. lia.
  - auto.
  - intros d f z m [<- L] Lz Lm. split; cbn; auto.
    rewrite app_length, !map2_length, map_length, firstn_length, skipn_length. lia.
  - intros d f x [A B] L. split; auto.
  - auto.
  - intros d f [A B]. auto.
Qed.

Definition okf_wf (d : nat) (f : okf N) : Prop := k_dim_z f = d /\ length (k_x f) = 2 * d /\
  length (k_pos_variance f) = d /\ length (k_pos_vel_covariance f) = d /\ length (k_vel_variance f) = d /\ length (k_default_r f) = d.

Lemma zip_coords_length (a b c d e : list N) n : length a = n -> length b = n -> length c = n -> length d = n -> length e = n ->
  length (zip_coords a b c d e) = n.
Proof.
  revert b c d e n. induction a as [|x a IH]; intros [|y b] [|z c] [|t d] [|u e] n; cbn; intros; subst; try lia. f_equal. apply IH; lia.
Qed.
Lemma update_coords_length q (rs : list N) cs z m n : length rs = n -> length cs = n -> length z = n -> length m = n ->
  length (update_coords q rs cs z m) = n.
Proof.
  revert cs z m n. induction rs as [|x a IH]; intros [|y b] [|t c] [|u d] n; cbn; intros; subst; try lia. f_equal. apply IH; lia.
Qed.
Lemma okf_coords_length d (f : okf N) : okf_wf d f -> length (okf_coords f) = d.
Proof.
  intros (A & B & C & D & E & F). apply zip_coords_length; auto; [rewrite firstn_length|rewrite skipn_length]; lia.
Qed.

Lemma okf_regular p : regular (okf_ops p) okf_wf.
Proof.
  split; cbn.
  - intros q. unfold okf_wf. cbn. rewrite app_length, !repeat_length. repeat split; lia.
  - intros d f (A & B & C & D & E & F). unfold okf_wf. cbn.
    rewrite app_length, map2_length, firstn_length, skipn_length. repeat split; auto; lia.
  - intros d f z m W Lz Lm. pose proof (okf_coords_length _ _ W) as L. destruct W as (A & B & C & D & E & F).
    unfold okf_wf. cbn. rewrite app_length, !map_length.
    rewrite (update_coords_length _ _ _ _ _ d) by auto. repeat split; auto; lia.
  - intros d f x (A & B & C & D & E & F) L. unfold okf_wf. cbn. repeat split; auto.
  - auto.
  - intros d f (A & B & C & D & E & F). auto.
Qed.
End Shapes.

Lemma flatten_zeros {N : Num} n dim : flatten (repeat (repeat (@n0 N) dim) n) = repeat n0 (dim * n).
Proof. unfold flatten. induction n as [|n IH]; cbn; [rewrite Nat.mul_0_r; reflexivity|]. rewrite IH, <- repeat_app. f_equal. lia. Qed.
Lemma reshape_zeros {N : Num} n dim : 0 < dim -> reshape_rows dim (repeat (@n0 N) (dim * n)) = repeat (repeat n0 dim) n.
Proof.
  intros H. rewrite <- flatten_zeros. apply (reshape_flatten n); auto. split; [apply repeat_length|].
  apply Forall_forall. intros x Hx. apply repeat_spec in Hx. subst. apply repeat_length.
Qed.

(* ---- numbers with the laws of a commutative ring ---- *)
Lemma firstn_app_len {A} (a b : list A) n : length a = n -> firstn n (a ++ b) = a.
Proof. intros <-. rewrite firstn_app, Nat.sub_diag, firstn_all. cbn. apply app_nil_r. Qed.
Lemma skipn_app_len {A} (a b : list A) n : length a = n -> skipn n (a ++ b) = b.
Proof. intros <-. rewrite skipn_app, Nat.sub_diag, skipn_all. reflexivity. Qed.

Section Rings.
Context {N : Num} (rt0 : ring_num N).
Let rt : ring_theory (@n0 N) n1 nadd nmul nsub (fun x => nsub n0 x) eq := rt0.
Add Ring num_ring : rt.

Lemma nf_ignores : ignores_unmeasured (nofilter_ops N) nf_wf.
Proof.
  intros d f mask z z' _ Lm L L' H. cbn [f_update nofilter_ops]. unfold nf_update, bits. f_equal. f_equal. f_equal.
  assert (A : agree mask z z') by (apply agree_iff; repeat split; auto; congruence). clear H L L' Lm.
  unfold map2. induction A as [|b m x z y z' Hb A IH]; cbn; auto. f_equal; [|exact IH].
  destruct b; [rewrite Hb by auto; reflexivity|]. cbn. ring.
Qed.

Lemma coord_update_off q r (c : coord N) z z' : coord_update q r c z n0 = coord_update q r c z' n0.
Proof. unfold coord_update. cbn. f_equal; ring. Qed.

Lemma okf_ignores p : ignores_unmeasured (okf_ops (N := N) p) okf_wf.
Proof.
  intros d f mask z z' _ Lm L L' H. cbn [f_update okf_ops]. set (diagonal := bits mask). unfold okf_update.
  enough (E : update_coords (k_q f) (k_default_r f) (okf_coords f) z diagonal =
     update_coords (k_q f) (k_default_r f) (okf_coords f) z' diagonal) by (rewrite E; reflexivity).
  unfold diagonal, bits. clear diagonal.
  assert (A : agree mask z z') by (apply agree_iff; repeat split; auto; congruence). clear H L L' Lm d.
  generalize (k_default_r f), (okf_coords f). induction A as [|b m x z y z' Hb A IH]; intros rs cs; [reflexivity|].
  destruct rs as [|r rs]; [reflexivity|]. destruct cs as [|c cs]; [reflexivity|]. cbn [map update_coords]. f_equal; [|apply IH].
  destruct b; [rewrite Hb by auto; reflexivity|]. apply coord_update_off.
Qed.

(* ---- C35 ---- *)
Lemma nf_steady : steady (nofilter_ops N) nf_wf.
Proof.
  split; cbn.
  - reflexivity.
  - reflexivity.
  - intros d f z mask [<- W] Lz Lm0 E. set (m := bits mask). assert (Lm : length m = nf_dim_z f) by (unfold m, bits; rewrite map_length; auto). clearbody m. rewrite E, firstn_app_len, skipn_app_len by auto. f_equal.
    clear -rt Lz Lm. rewrite <- Lm in Lz. clear Lm. revert z Lz. unfold map2. induction m as [|b m IH]; intros [|x z]; cbn; intros; try lia; auto.
    f_equal; [ring|]. apply IH. lia.
Qed.

Lemma okf_steady p : steady (okf_ops (N := N) p) okf_wf.
Proof.
  split; cbn.
  - reflexivity.
  - intros d f z (A & B & _) Lz E. rewrite A, E, firstn_app_len, skipn_app_len by auto. f_equal.
    clear -rt Lz. subst d. unfold map2. induction z as [|x z IH]; cbn; auto. f_equal; [ring|exact IH].
  - intros d f z mask (A & B & C & D & E0 & F) Lz Lm0 E. set (m := bits mask). assert (Lm : length m = d) by (unfold m, bits; rewrite map_length; auto). clearbody m. clear Lm0. rewrite E. unfold okf_coords. rewrite A, E, firstn_app_len, skipn_app_len by auto.
    clear -rt Lz Lm C D E0 F. revert C D E0 F Lz Lm.
    generalize (k_q f), (k_default_r f), (k_pos_variance f), (k_pos_vel_covariance f), (k_vel_variance f). intros q rs pv cov vv.
    intros C D E0 F Lz Lm.
    enough (H : map c_pos (update_coords q rs (zip_coords z (repeat n0 d) pv cov vv) z m) = z /\
                map c_vel (update_coords q rs (zip_coords z (repeat n0 d) pv cov vv) z m) = repeat n0 d).
    { destruct H as [H1 H2]. rewrite H1, H2. reflexivity. }
    revert rs pv cov vv z m C D E0 F Lz Lm.
    induction d as [|d IH]; intros [|r rs] [|a pv] [|b cov] [|e vv] [|x z] [|u m]; cbn; intros; try lia; auto.
    destruct (IH rs pv cov vv z m) as [H1 H2]; try (apply eq_add_S; assumption). split; (apply f_equal2; [cbn; ring|assumption]).
Qed.
End Rings.

Section Static.
Context {N : Num} {FO : filter_ops N} (laws : NumLaws N).
Notation st := (st FO).
Notation tobj := (tobj FO).
Notation frame := (CallSpec.frame FO).

Definition at_rest (n dim : nat) (P : points N) (o : tobj) : Prop :=
  oc_num_points (o_conf o) = n /\ oc_dim_points (o_conf o) = dim /\
  f_x FO (o_filter o) = flatten P ++ repeat n0 (dim * n).

Lemma mask_assign_self {A} m : forall z : list A, mask_assign m z z = z.
Proof. induction m as [|b m IH]; intros [|x z]; cbn; auto. rewrite IH. destruct b; reflexivity. Qed.
Lemma mask_fill_repeat {A} m (v : A) : forall d, mask_fill m v (repeat v d) = repeat v d.
Proof. induction m as [|b m IH]; intros [|d]; cbn; auto. rewrite IH. destruct b; reflexivity. Qed.

Lemma dim_z_eq (o : tobj) n dim : oc_num_points (o_conf o) = n -> oc_dim_points (o_conf o) = dim -> dim_z o = dim * n.
Proof. unfold dim_z. intros -> ->. reflexivity. Qed.

Theorem static_object c (s : st) f0 fs i wf n dim (P : points N) : regular FO wf -> steady FO wf -> rnd_ok (tc_rnd c) -> tracker_state c s ->
  tc_reid_distance c = None -> video c s (f0 :: fs) -> s_icount (f_pre f0) < i <= s_icount (f_post f0) ->
  rectangular n dim P -> 0 < dim -> 0 < n ->
  (forall f, In f (f0 :: fs) -> seen f i -> d_absolute_points (s_heap (f_post f) (last_det (f_post f) i)) = P) ->
  forall f, In f (f0 :: fs) -> tracked (f_post f) i ->
  absolute_estimate (s_store (f_post f) i) = P /\
  estimate_velocity (s_store (f_post f) i) = repeat (repeat n0 dim) n.
Proof.
  intros R SD Hr Ht Nr V Hi RC Hdim Hn HP f Hf Hti.
  destruct (In_nth_error _ _ Hf) as [m Hm].
  pose proof (flatten_length _ _ _ RC) as FL.
  pose proof (object_history laws c s f0 fs i (fun _ o => fits wf o /\ at_rest n dim P o) Hr Ht Nr V Hi) as OH.
  assert (X : fits wf (s_store (f_post f) i) /\ at_rest n dim P (s_store (f_post f) i)).
  { apply (OH) with (n := m); auto.
    - intros r Hr0 Er HA NR. destruct (same_age_scores _ _ r HA) as (_ & U & _).
      assert (EP : d_absolute_points (ct_heap (f_ct f0) (f_dets f0) (f_pre f0) r) = P).
      { rewrite <- U, Er. apply HP; [left; auto|]. unfold seen. rewrite <- Er. auto. }
      split.
      + eapply fits_new; eauto. rewrite EP. eauto.
      + unfold at_rest. rewrite (nr_conf _ _ _ _ _ _ _ NR), (nr_filter _ _ _ _ _ _ _ NR), EP, (sd_create _ _ SD), FL. cbn.
        destruct RC as [A B]. destruct P as [|row P']; [cbn in A; lia|]. inversion B; subst. auto.
    - intros past g Hg Hp Hc [P1 (A1 & A2 & A3)] Hns U. split; [eapply fits_step; eauto|].
      pose proof (dim_z_eq _ _ _ A1 A2) as DZ. unfold fits in P1. rewrite DZ in P1.
      assert (E : f_x FO (f_predict FO (o_filter (s_store (f_pre g) i))) = flatten P ++ repeat n0 (dim * n)).
      { rewrite (sd_predict _ _ SD _ _ (flatten P) P1); auto. }
      destruct U as [mm U]. unfold at_rest. rewrite U. destruct (f_ct g); cbn; rewrite E; auto.
    - intros past g r dist om Hg Hp Hc [P1 (A1 & A2 & A3)] Hin Er HA U (o1 & F1 & F2).
      assert (Fm : fits wf om) by (eapply fits_step; eauto).
      split; [rewrite F2; exact (fits_hit wf _ _ _ _ _ R Fm F1)|].
      destruct (same_age_scores _ _ r HA) as (_ & U2 & _).
      assert (EP : d_absolute_points (ct_heap (f_ct g) (f_dets g) (f_pre g) r) = P).
      { rewrite <- U2, Er. apply HP; [right; auto|]. unfold seen. rewrite <- Er. auto. }
      assert (Cm : o_conf om = o_conf (s_store (f_pre g) i)) by (rewrite (um_conf _ _ U), st_conf; reflexivity).
      pose proof (dim_z_eq _ _ _ A1 A2) as DZ. unfold fits in P1. rewrite DZ in P1.
      assert (Xm : f_x FO (o_filter om) = flatten P ++ repeat n0 (dim * n)).
      { rewrite <- (sd_predict _ _ SD _ _ (flatten P) P1) in A3; auto. destruct U as [mm ->]. destruct (f_ct g); exact A3. }
      unfold at_rest. rewrite F2. cbn. rewrite (hr_conf _ _ _ _ _ F1), (hit_x _ _ _ _ _ _ R Fm F1). cbv zeta. rewrite Cm, A1, A2, EP.
      split; [auto|]. split; [auto|]. unfold fits in Fm. assert (DM : dim_z om = dim * n) by (apply dim_z_eq; rewrite Cm; auto).
      rewrite DM in Fm |- *. rewrite repeat_each_map. fold (@bits N (repeat_each dim (over_threshold (oc_det_thr (o_conf (s_store (f_pre g) i))) n (ct_heap (f_ct g) (f_dets g) (f_pre g) r)))).
      rewrite (sd_update _ _ SD (dim * n) _ (flatten P)); auto.
      + rewrite Xm. unfold reset_first_detected. rewrite firstn_app_len, skipn_app_len by auto.
        rewrite mask_assign_self, mask_fill_repeat. reflexivity.
      + rewrite repeat_each_length, <- A1, <- Cm, (hr_mask_len _ _ _ _ _ F1). reflexivity. }
  destruct X as [W (A1 & A2 & A3)]. rewrite absolute_estimate_eq. unfold estimate_velocity.
  rewrite (dim_z_eq _ _ _ A1 A2), A2, A3, firstn_app_len, skipn_app_len by auto. split; [apply (reshape_flatten n); auto|].
  apply reshape_zeros. auto.
Qed.
End Static.

(* ---- C37 ---- *)
Section NoFilterLast.
Context {N : Num} (laws : NumLaws N) (rt0 : ring_num N).
Let rt : ring_theory (@n0 N) n1 nadd nmul nsub (fun x => nsub n0 x) eq := rt0.
Add Ring num_ring2 : rt.
Notation FO := (nofilter_ops N).
Notation st := (st FO).
Notation tobj := (tobj FO).
Notation frame := (CallSpec.frame FO).

Lemma nf_update_nth d (f : nofilter N) (z : list N) (m : list bool) k : nf_wf d f -> length z = d -> length m = d ->
  nth_error (nf_x (nf_update  f z (map (fun b : bool => if b then n1 else n0) m))) k =
  match nth_error m k with Some true => nth_error z k | _ => nth_error (nf_x f) k end.
Proof.
  destruct f as [d0 x]. intros [E L] Lz Lm. cbn in E, L. subst d0. unfold nf_update. cbn.
  assert (X : exists p v : list N, length p = d /\ x = p ++ v).
  { exists (firstn d x), (skipn d x). rewrite firstn_skipn, firstn_length.
    split; [|reflexivity]. transitivity (Nat.min d (2 * d)); [apply (f_equal (Nat.min d)); exact L|lia]. }
  destruct X as (p & v & Lp & ->). rewrite (firstn_app_len ), (skipn_app_len ) by auto.
  clear L. revert d z p k Lz Lm Lp. unfold map2.
  clear -rt. induction m as [|b m IH]; intros d [|x z] [|y p] k; cbn; intros; try lia.
  - destruct k; reflexivity.
  - destruct k as [|k]; cbn.
    + destruct b; f_equal; ring.
    + apply (IH (length m)); lia.
Qed.

Lemma row_eq n dim (p : points N) (x : list N) k : rectangular n dim p -> 0 < dim -> k < n -> length x = 2 * (dim * n) ->
  (forall j, j < dim -> nth_error x (k * dim + j) = nth_error (flatten p) (k * dim + j)) ->
  nth_error (reshape_rows  dim (firstn (dim * n) x)) k = nth_error p k.
Proof.
  intros [Rn Rd] Hd Hk L H. rewrite reshape_nth by (auto; rewrite firstn_length; nia).
  destruct (nth_error p k) as [row|] eqn:Erow; [|apply nth_error_None in Erow; lia].
  assert (Lrow : length row = dim) by (rewrite Forall_forall in Rd; apply Rd; eapply nth_error_In; eauto).
  f_equal. apply nth_error_ext. intros j. rewrite nth_error_firstn. destruct (j <? dim) eqn:E.
  - apply Nat.ltb_lt in E. rewrite nth_error_skipn, nth_error_firstn.
    replace (k * dim + j <? dim * n) with true by (symmetry; apply Nat.ltb_lt; nia).
    rewrite H by auto. rewrite nth_error_flatten with (d := dim) by auto.
    rewrite Nat.div_add_l, Nat.div_small, Nat.add_0_r, Erow by lia.
    f_equal. rewrite Nat.add_comm, Nat.mod_add by lia. apply Nat.mod_small. auto.
  - apply Nat.ltb_ge in E. symmetry. apply nth_error_None. lia.
Qed.

Definition det_of (f : frame) (i : nat) : detection N := s_heap (f_post f) (last_det (f_post f) i).

Definition remembers (c : tconf FO) i n dim (past : list frame) (o : tobj) : Prop :=
  fits nf_wf o /\ oc_num_points (o_conf o) = n /\ oc_dim_points (o_conf o) = dim /\
  skipn (dim * n) (nf_x (o_filter o)) = repeat n0 (dim * n) /\
  forall before f after k, past = before ++ f :: after -> (before = [] \/ (seen f i /\ fresh f i)) -> k < n ->
    above (tc_det_thr c) (det_of f i) k -> (forall g, In g after -> ~ (seen g i /\ above (tc_det_thr c) (det_of g i) k)) ->
    nth_error (o_once o) k = Some true /\
    forall j, j < dim -> nth_error (nf_x (o_filter o)) (k * dim + j) = nth_error (flatten (d_absolute_points (det_of f i))) (k * dim + j).

Lemma over_above (thr : N) n (d : detection N) k : k < n -> above thr d k -> nth_error (over_threshold thr n d) k = Some true.
Proof.
  unfold over_threshold, above. destruct (d_scores d) as [sc|]; intros Hk H.
  - destruct H as (x & E & H). rewrite nth_error_map, E. cbn. congruence.
  - apply nth_error_repeat; auto.
Qed.

Lemma snoc_cases {A} (past before after : list A) g f : past ++ [g] = before ++ f :: after ->
  (after = [] /\ past = before /\ f = g) \/ exists after', after = after' ++ [g] /\ past = before ++ f :: after'.
Proof.
  intros E. destruct after as [|a l] using rev_ind.
  - apply app_inj_tail in E as [-> ->]. auto.
  - right. exists l. rewrite app_comm_cons, app_assoc in E. apply app_inj_tail in E as [E ->]. auto.
Qed.

Lemma remembers_all (c : tconf FO) (s : st) f0 fs i n dim : rnd_ok (tc_rnd c) -> tracker_state c s ->
  tc_reid_distance c = None -> video c s (f0 :: fs) -> s_icount (f_pre f0) < i <= s_icount (f_post f0) -> 0 < dim -> 0 < n ->
  (forall f, In f (f0 :: fs) -> seen f i -> rectangular n dim (d_absolute_points (det_of f i))) ->
  forall m f, nth_error (f0 :: fs) m = Some f -> tracked (f_post f) i -> remembers c i n dim (firstn (S m) (f0 :: fs)) (s_store (f_post f) i).
Proof.
  intros Hr Ht Nr V Hi Hdim Hn HP.
  apply (object_history laws c s f0 fs i (remembers c i n dim)); auto.
  - intros r Hr0 Er HA NR. destruct (same_age_scores _ _ r HA) as (U1 & U & _).
    assert (RC : rectangular n dim (d_absolute_points (ct_heap (f_ct f0) (f_dets f0) (f_pre f0) r))).
    { rewrite <- U. rewrite Er. apply HP; [left; auto|]. unfold seen. rewrite <- Er. auto. }
    pose proof (nr_conf _ _ _ _ _ _ _ NR) as C. pose proof (nr_filter _ _ _ _ _ _ _ NR) as F. cbn in F.
    pose proof (flatten_length _ _ _ RC) as FL.
    pose proof (fits_new nf_wf c _ r _ _ _ _ nf_regular NR (ex_intro _ n (ex_intro _ dim RC))) as FT. destruct RC as [Rn Rd].
    split; [exact FT|]. rewrite C, F. cbn [nf_x nf_create oc_num_points oc_dim_points]. split; [auto|]. split; [|split].
    + revert Rn Rd. clear -Hn. destruct (d_absolute_points _) as [|row p]; cbn; intros Rn Rd; [lia|]. inversion Rd; auto.
    + rewrite skipn_app_len by auto. exact (f_equal (repeat n0) FL).
    + intros before f after k E _ Hk Hab _.
      assert (E2 : f = f0) by (destruct before as [|? [|? ?]]; cbn in E; congruence). subst f. unfold det_of in *. rewrite <- Er in *.
      split.
      * rewrite (nr_once _ _ _ _ _ _ _ NR), Rn. apply over_above; auto. eapply above_scores; [|exact Hab]. auto.
      * intros j Hj. rewrite nth_error_app1 by (rewrite FL; nia). rewrite U. reflexivity.
  - intros past g Hg Hp Hc (P1 & P2 & P3 & P4 & P5) Hns U.
    pose proof (fits_step nf_wf _ _ _ nf_regular P1 U) as FT.
    assert (UF : o_filter (s_store (f_post g) i) = o_filter (s_store (f_pre g) i)) by (destruct U as [mm ->]; destruct (f_ct g); reflexivity).
    assert (UC : o_conf (s_store (f_post g) i) = o_conf (s_store (f_pre g) i)) by (rewrite (um_conf _ _ U), st_conf; reflexivity).
    assert (UO : o_once (s_store (f_post g) i) = o_once (s_store (f_pre g) i)) by (destruct U as [mm ->]; destruct (f_ct g); reflexivity).
    split; [exact FT|]. rewrite UF, UC, UO. split; [auto|]. split; [auto|]. split; [auto|].
    intros before f after k E Hb Hk Hab Haft. destruct (snoc_cases _ _ _ _ _ E) as [(-> & -> & ->)|(after' & -> & E')].
    + destruct Hb as [->|Hb]; [congruence|]. contradiction.
    + apply (P5 before f after' k E' Hb Hk Hab). intros x Hx. apply Haft. apply in_or_app. auto.
  - intros past g r dist om Hg Hp Hc (P1 & P2 & P3 & P4 & P5) Hin Er HA U (o1 & F1 & F2).
    assert (Fm : fits nf_wf om) by (eapply fits_step; eauto; apply nf_regular).
    pose proof (fits_hit nf_wf _ _ _ _ _ nf_regular Fm F1) as FT.
    destruct (same_age_scores _ _ r HA) as (U1 & U2 & _).
    assert (UF : o_filter om = o_filter (s_store (f_pre g) i)) by (destruct U as [mm ->]; destruct (f_ct g); reflexivity).
    assert (UC : o_conf om = o_conf (s_store (f_pre g) i)) by (rewrite (um_conf _ _ U), st_conf; reflexivity).
    assert (UO : o_once om = o_once (s_store (f_pre g) i)) by (destruct U as [mm ->]; destruct (f_ct g); reflexivity).
    pose proof (hr_conf _ _ _ _ _ F1) as C1. pose proof (hr_filter _ _ _ _ _ F1) as FF.
    pose proof (hr_mask_len _ _ _ _ _ F1) as ML. pose proof (hr_once_len _ _ _ _ _ F1) as OL. pose proof (hr_dim _ _ _ _ _ F1) as DL.
    pose proof (hr_once _ _ _ _ _ F1) as HO.
    unfold fits in Fm. assert (DM : dim_z om = dim * n) by (apply dim_z_eq; rewrite UC; auto).
    rewrite DM in *. rewrite UC, P2, P3, (co_thr _ _ Hc) in *. rewrite UF, UO in *. cbv zeta in FF. cbn [f_update f_x f_set_x nofilter_ops] in FF.
    set (d := ct_heap (f_ct g) (f_dets g) (f_pre g) r) in *.
    set (mask := over_threshold (tc_det_thr c) n d) in *.
    rewrite repeat_each_map in FF.
    set (fu := nf_update _ _ _) in FF.
    assert (Lrep : length (repeat_each dim mask) = dim * n) by (rewrite repeat_each_length, ML; reflexivity).
    assert (Fu : nf_wf (dim * n) fu) by (apply (rg_update _ nf_regular); auto; rewrite map_length; auto).
    assert (FuX : forall k, nth_error (nf_x fu) k = match nth_error (repeat_each dim mask) k with Some true => nth_error (flatten (d_absolute_points d)) k | _ => nth_error (nf_x (o_filter (s_store (f_pre g) i))) k end).
    { intros k. apply (nf_update_nth (dim * n)); auto. }
    assert (LX : length (nf_x fu) = 2 * (dim * n)) by apply Fu.
    assert (PX : forall k, k < dim * n -> nth_error (nf_x (o_filter o1)) k =
       if nth (k mod n) mask false && negb (nth (k / dim) (o_once (s_store (f_pre g) i)) true) || nth (k / dim) mask false
       then nth_error (flatten (d_absolute_points d)) k else nth_error (nf_x (o_filter (s_store (f_pre g) i))) k).
    { intros k Hk. rewrite FF. cbn [nf_x]. unfold reset_first_detected.
      rewrite nth_error_app1 by (rewrite mask_assign_length, firstn_length; lia).
      rewrite mask_assign_nth by (rewrite ?first_mask_length, ?firstn_length, ?ML; auto; lia).
      rewrite nth_error_first_mask by (rewrite ?ML; auto). rewrite ML.
      rewrite nth_error_firstn. replace (k <? dim * n) with true by (symmetry; apply Nat.ltb_lt; auto).
      rewrite FuX, nth_error_repeat_each by auto.
      rewrite (nth_error_nth' mask false) by (rewrite ML; apply Nat.div_lt_upper_bound; lia).
      destruct (_ && _); [reflexivity|]. destruct (nth (k / dim) mask false); reflexivity. }
    assert (DivM : forall k j, j < dim -> (k * dim + j) / dim = k).
    { intros k j Hj. rewrite Nat.div_add_l by lia. rewrite Nat.div_small by auto. lia. }
    split; [rewrite F2; exact FT|]. rewrite F2. cbn [o_conf o_filter o_once set_last_distance]. rewrite C1. split; [auto|]. split; [auto|].
    assert (SV : skipn (dim * n) (nf_x fu) = repeat n0 (dim * n)).
    { rewrite <- P4. unfold fu, nf_update. cbn [nf_x nf_dim_z]. destruct Fm as [Fm1 Fm2]. rewrite Fm1. apply skipn_app_len.
      rewrite !map2_length, !map_length, firstn_length. cbn [f_predict nofilter_ops nf_predict] in Fm2. lia. }
    split.
    { rewrite FF. cbn [nf_x]. unfold reset_first_detected. rewrite skipn_app_len by (rewrite mask_assign_length, firstn_length; lia).
      rewrite SV. apply mask_fill_repeat. }
    intros before f after k E Hb Hk Hab Haft. destruct (snoc_cases _ _ _ _ _ E) as [(-> & -> & ->)|(after' & -> & E')].
    + unfold det_of in *. rewrite <- Er in *.
      assert (Mk : nth_error mask k = Some true) by (apply over_above; auto; eapply above_scores; [|exact Hab]; auto).
      split.
      * rewrite HO. destruct (nth_error (o_once (s_store (f_pre g) i)) k) as [b|] eqn:Eb; [|apply nth_error_None in Eb; lia].
        rewrite (nth_error_map2 _ _ _ _ _ _ Eb Mk). destruct b; reflexivity.
      * intros j Hj. rewrite PX by nia. rewrite DivM by auto. rewrite (nth_error_nth _ _ false Mk), orb_true_r, U2. reflexivity.
    + destruct (P5 before f after' k E' Hb Hk Hab) as [Q1 Q2]; [intros x Hx; apply Haft; apply in_or_app; auto|].
      assert (Mk : nth_error mask k = Some false).
      { destruct (nth_error mask k) as [[]|] eqn:Em; auto; [|apply nth_error_None in Em; lia]. exfalso.
        apply (Haft g); [apply in_or_app; right; left; auto|]. unfold seen, det_of. rewrite <- Er. split; auto.
        apply (over_true _ n d k ML) in Em as [_ Em]. eapply above_scores; [|exact Em]. auto. }
      split.
      * rewrite HO, (nth_error_map2 _ _ _ _ _ _ Q1 Mk). reflexivity.
      * intros j Hj. rewrite PX by nia. rewrite DivM by auto. rewrite (nth_error_nth _ _ false Mk), (nth_error_nth _ _ true Q1).
        cbn [negb]. rewrite andb_false_r. cbn [orb]. auto.
Qed.

Theorem nofilter_last_seen (c : tconf FO) (s : st) f0 fs i n dim : rnd_ok (tc_rnd c) -> tracker_state c s ->
  tc_reid_distance c = None -> video c s (f0 :: fs) -> s_icount (f_pre f0) < i <= s_icount (f_post f0) -> 0 < dim -> 0 < n ->
  (forall f, In f (f0 :: fs) -> seen f i -> rectangular n dim (d_absolute_points (det_of f i))) ->
  forall m g, nth_error (f0 :: fs) m = Some g -> tracked (f_post g) i ->
  estimate_velocity (s_store (f_post g) i) = repeat (repeat n0 dim) n /\
  forall before f after k, firstn (S m) (f0 :: fs) = before ++ f :: after -> (before = [] \/ (seen f i /\ fresh f i)) -> k < n ->
    above (tc_det_thr c) (det_of f i) k -> (forall g, In g after -> ~ (seen g i /\ above (tc_det_thr c) (det_of g i) k)) ->
    nth_error (absolute_estimate (s_store (f_post g) i)) k = nth_error (d_absolute_points (det_of f i)) k.
Proof.
  intros Hr Ht Nr V Hi Hdim Hn HP m g Hg Hti.
  destruct (remembers_all c s f0 fs i n dim Hr Ht Nr V Hi Hdim Hn HP m g Hg Hti) as (P1 & P2 & P3 & P4 & P5).
  pose proof (dim_z_eq _ _ _ P2 P3) as DZ. split.
  - unfold estimate_velocity. rewrite DZ, P3. cbn [f_x nofilter_ops]. rewrite P4.
    exact (reshape_zeros  n dim Hdim).
  - intros before f after k E Hb Hk Hab Haft. destruct (P5 before f after k E Hb Hk Hab Haft) as [_ Q].
    rewrite absolute_estimate_eq, DZ, P3. apply row_eq; auto.
    + apply HP.
      * assert (X : In f (firstn (S m) (f0 :: fs))) by (rewrite E; apply in_or_app; right; left; auto).
        rewrite <- (firstn_skipn (S m) (f0 :: fs)). apply in_or_app. auto.
      * destruct Hb as [->|Hb]; [|apply Hb]. cbn in E. injection E as <- _.
        apply tracker_state_good in Ht. destruct (video_cons_inv laws _ _ _ _ V Hr Ht) as (Gp & Gq & E & _).
        destruct (new_object laws _ _ _ _ _ _ _ _ Hr Gp E Hi) as (_ & r & Hri & NR). unfold seen, last_det.
        rewrite (nr_last _ _ _ _ _ _ _ NR). exact Hri.
    + unfold fits in P1. rewrite DZ in P1. apply P1.
Qed.
End NoFilterLast.

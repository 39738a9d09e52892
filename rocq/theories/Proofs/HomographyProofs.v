(** C39, C41: homographies. *)
From Coq Require Import ZArith Reals Lra Lia Bool Arith List.
From Verif Require Import Model.Num Model.Base Model.Tracker Model.CameraMotion
  Spec.BuiltinSpec Spec.CameraSpec Proofs.CameraProofs Proofs.BuiltinProofs2.
Import ListNotations.
Local Open Scope R_scope.
Notation M3 := (mat3 RNum).

Lemma apply3_mul (a b : M3) v : apply3 (mat3_mul a b) v = apply3 a (apply3 b v).
Proof. destruct v as [[x y] z], a, b. unfold apply3, mat3_mul. cbn. (f_equal; [f_equal|]); ring. Qed.
Lemma apply3_scale (a : M3) c v : apply3 a (scale3 c v) = scale3 c (apply3 a v).
Proof. destruct v as [[x y] z], a. unfold apply3, scale3. cbn. (f_equal; [f_equal|]); ring. Qed.
Lemma scale3_scale c d v : scale3 c (scale3 d v) = scale3 (c * d) v.
Proof. destruct v as [[x y] z]. unfold scale3. (f_equal; [f_equal|]); ring. Qed.
Lemma scale3_one v : scale3 1 v = v.
Proof. destruct v as [[x y] z]. unfold scale3. (f_equal; [f_equal|]); ring. Qed.

Lemma det3_mul (a b : M3) : @det3 RNum (mat3_mul a b) = (det3 a : R) * (det3 b : R).
Proof. destruct a, b. unfold det3, mat3_mul. cbn. ring. Qed.

(** A matrix that acts as the identity is the identity. *)
Lemma apply3_inj (a b : M3) : (forall v, apply3 a v = apply3 b v) -> a = b.
Proof.
  intros H. pose proof (H (1, 0, 0)) as H1. pose proof (H (0, 1, 0)) as H2. pose proof (H (0, 0, 1)) as H3. destruct a, b. unfold apply3 in *. cbn in *.
  injection H1. injection H2. injection H3. intros. f_equal; lra.
Qed.
Definition eye3 : M3 := @MkM RNum 1 0 0 0 1 0 0 0 1.
Lemma apply3_eye v : apply3 eye3 v = v.
Proof. destruct v as [[x y] z]. unfold apply3, eye3. cbn. (f_equal; [f_equal|]); ring. Qed.
Lemma inv3_ok (a : M3) : (det3 a : R) <> 0 -> exists i, inv3 a = Ret i /\ (forall v, apply3 i (apply3 a v) = v) /\ (forall v, apply3 a (apply3 i v) = v).
Proof.
  intros D. unfold inv3. cbn [neqb RNum n0]. destruct (reqb_spec (det3 a) 0) as [E|E]; [contradiction|].
  eexists. split; [reflexivity|]. unfold det3 in *. destruct a as [a b c d e f g h i]. cbn in *. clear E.
  split; intros [[x y] z]; unfold apply3; cbn; (f_equal; [f_equal|]); field; exact D.
Qed.
Lemma inv3_singular (a : M3) : (det3 a : R) = 0 -> inv3 a = Raise ELinAlgError.
Proof. intros D. unfold inv3. cbn [neqb RNum n0]. destruct (reqb_spec (det3 a) 0) as [E|E]; [reflexivity|contradiction]. Qed.
Lemma invertible_det (a : M3) : invertible a <-> (det3 a : R) <> 0.
Proof.
  split.
  - intros (b & H & _) D. assert (E : mat3_mul b a = eye3) by (apply apply3_inj; intros v; rewrite apply3_mul, apply3_eye; apply H).
    apply (f_equal (fun m : M3 => (det3 m : R))) in E. cbn beta in E. rewrite det3_mul, D in E. unfold det3, eye3 in E. cbn in E. lra.
  - intros D. destruct (inv3_ok a D) as (i & _ & H1 & H2). exists i. auto.
Qed.

(** Projection in homogeneous coordinates. *)
Lemma project_value (m : M3) x y : depth (apply3 m (x, y, 1)) <> 0 -> @project RNum m [x; y] = dehomogenize (apply3 m (x, y, 1)).
Proof.
  unfold depth, apply3, project, dehomogenize. cbn [snd]. intros H. cbn [neqb RNum n0 nadd nmul].
  destruct m as [a b c d e f g h i]. cbn in *. destruct (reqb_spec (g * x + h * y + i) 0) as [E|E]; [lra|].
  rewrite !Rmult_1_r. reflexivity.
Qed.
Lemma project_moves (m : M3) v w c : apply3 m v = scale3 c w -> c <> 0 -> depth v <> 0 -> depth w <> 0 ->
  @project RNum m (dehomogenize v) = dehomogenize w.
Proof.
  destruct v as [[x y] z], w as [[x' y'] z']. unfold depth. cbn [snd]. intros E Hc Hz Hz'. unfold dehomogenize at 1.
  assert (A : apply3 m (x / z, y / z, 1) = scale3 (/ z * c) (x', y', z')).
  { rewrite <- scale3_scale, <- E, <- apply3_scale. f_equal. unfold scale3. f_equal; [f_equal|]; field; exact Hz. }
  assert (Hk : / z * c <> 0) by (apply Rmult_integral_contrapositive; split; [apply Rinv_neq_0_compat|]; auto).
  rewrite project_value; rewrite A; unfold scale3, depth; cbn [snd].
  - unfold dehomogenize. f_equal; [|f_equal]; field; auto.
  - apply Rmult_integral_contrapositive. auto.
Qed.

(** C39. *)
Lemma homography_round_trip (m : M3) (h : homography RNum) (p : points RNum) : homography_new m = Ret h ->
  Forall (fun row => exists x y, row = [x; y] /\ depth (apply3 m (x, y, 1)) <> 0) p ->
  ct_rel_to_abs (homography_ct h) (ct_abs_to_rel (homography_ct h) p) = p.
Proof.
  unfold homography_new. intros E F. destruct (Req_dec (det3 m) 0) as [D|D]; [rewrite (inv3_singular m D) in E; discriminate|].
  destruct (inv3_ok m D) as (i & Ei & H1 & H2). rewrite Ei in E. injection E as <-. cbn. rewrite map_map. rewrite <- (map_id p) at 2.
  apply map_ext_Forall. eapply Forall_impl; [|exact F]. intros row (x & y & -> & Hd).
  rewrite (project_value m x y Hd). rewrite (project_moves i (apply3 m (x, y, 1)) (x, y, 1) 1).
  - unfold dehomogenize, Rdiv. rewrite Rinv_1, !Rmult_1_r. reflexivity.
  - rewrite H1, scale3_one. reflexivity.
  - lra.
  - exact Hd.
  - unfold depth. cbn. lra.
Qed.
Lemma homography_round_trip_back (m : M3) (h : homography RNum) (p : points RNum) : homography_new m = Ret h ->
  Forall (fun row => exists x y, row = [x; y] /\ forall w, apply3 m w = (x, y, 1) -> depth w <> 0) p ->
  ct_abs_to_rel (homography_ct h) (ct_rel_to_abs (homography_ct h) p) = p.
Proof.
  unfold homography_new. intros E F. destruct (Req_dec (det3 m) 0) as [D|D]; [rewrite (inv3_singular m D) in E; discriminate|].
  destruct (inv3_ok m D) as (i & Ei & H1 & H2). rewrite Ei in E. injection E as <-. cbn. rewrite map_map. rewrite <- (map_id p) at 2.
  apply map_ext_Forall. eapply Forall_impl; [|exact F]. intros row (x & y & -> & Hd). specialize (Hd (apply3 i (x, y, 1)) (H2 (x, y, 1))).
  rewrite (project_value i x y Hd). rewrite (project_moves m (apply3 i (x, y, 1)) (x, y, 1) 1).
  - unfold dehomogenize, Rdiv. rewrite Rinv_1, !Rmult_1_r. reflexivity.
  - rewrite H2, scale3_one. reflexivity.
  - lra.
  - exact Hd.
  - unfold depth. cbn. lra.
Qed.
Lemma homography_rejects (m : M3) : (invertible m -> exists h, homography_new m = Ret h) /\ (~ invertible m -> homography_new m = Raise ELinAlgError).
Proof.
  unfold homography_new. split.
  - intros H. apply invertible_det in H. destruct (inv3_ok m H) as (i & -> & _). eauto.
  - intros H. destruct (Req_dec (det3 m) 0) as [D|D]; [rewrite (inv3_singular m D); reflexivity|]. exfalso. apply H, invertible_det, D.
Qed.

Lemma homography_direction (m : M3) (h : homography RNum) x y : homography_new m = Ret h -> depth (apply3 m (x, y, 1)) <> 0 ->
  ct_abs_to_rel (homography_ct h) [[x; y]] = [dehomogenize (apply3 m (x, y, 1))].
Proof.
  unfold homography_new. destruct (inv3 m); intros E; [|discriminate]. injection E as <-. intros H. cbn [ct_abs_to_rel homography_ct map h_matrix].
  rewrite (project_value m x y H). reflexivity.
Qed.

(** ** C41 *)
Section Camera.
Variables (V : vision RNum) (find : points RNum -> points RNum -> result (option M3 * option (list bool))) (thr : R) (H : gray_t V -> M3).
Variable video : list (frame_t V * option (mask_t V)).
Hypothesis ok : homography_measures false V video find H.
Variable g0 : gray_t V.

(** [m] maps the first image to image [g], up to a factor. *)
Definition maps_to (m : M3) (g : gray_t V) : Prop := exists c, c <> 0 /\ forall w, apply3 m (apply3 (H g0) w) = scale3 c (apply3 (H g) w).
Definition hdata_ok (gp : gray_t V) (d : option M3) : Prop := match d with None => gp = g0 | Some m => maps_to m gp end.
Definition hprev_ok (g : gray_t V) (m : option (mask_t V)) (p : option (points RNum)) : Prop := match p with None => True | Some q => own_points V video g m q /\ (4 <= length q)%nat /\ planar q end.

Lemma maps_to_det m g : maps_to m g -> (det3 m : R) <> 0.
Proof.
  intros (c & Hc & E). apply invertible_det.
  destruct (hm_invertible _ _ _ _ _ ok g0) as (i0 & A0 & B0). destruct (hm_invertible _ _ _ _ _ ok g) as (i & A & B).
  assert (Em : forall v, apply3 m v = scale3 c (apply3 (H g) (apply3 i0 v))) by (intros v; rewrite <- E, B0; reflexivity).
  set (n := mat3_mul (H g0) (mat3_mul (@MkM RNum (/ c) 0 0 0 (/ c) 0 0 0 (/ c)) i)).
  assert (En : forall v, apply3 n v = apply3 (H g0) (scale3 (/ c) (apply3 i v))).
  { intros v. unfold n. rewrite !apply3_mul. f_equal. destruct (apply3 i v) as [[x y] z]. unfold apply3, scale3. cbn. (f_equal; [f_equal|]); ring. }
  exists n. split; intros v.
  - rewrite En, Em, !apply3_scale, A, B0, scale3_scale. replace (/ c * c) with 1 by (field; auto). apply scale3_one.
  - rewrite Em, En, A0, !apply3_scale, B, scale3_scale. replace (c * / c) with 1 by (field; auto). apply scale3_one.
Qed.
Lemma hflow_found gn mn gp pp mask : shot V video gn mn -> shot V video gp mask -> hprev_ok gp mask pp -> exists curr prev M used c, sparse_flow V gn gp pp mask = Ret (curr, prev) /\
  (own_points V video gp mask prev /\ (4 <= length prev)%nat /\ planar prev) /\ (4 <= length curr)%nat /\ find prev curr = Ret (Some M, Some used) /\ c <> 0 /\
  forall w, apply3 M (apply3 (H gp) w) = scale3 c (apply3 (H gn) w).
Proof.
  intros SN SP P. unfold sparse_flow.
  assert (E : exists prev, (match pp with Some p => Ret (Some p) | None => corners V gp mask end) = Ret (Some prev) /\ own_points V video gp mask prev /\ (4 <= length prev)%nat /\ planar prev).
  { destruct pp as [p|]; [exists p; auto|]. destruct (hm_corners _ _ _ _ _ ok gp mask SP) as (p & E & Hp). exists p. split; [exact E|]. split; [constructor; exact E|exact Hp]. }
  destruct E as (prev & -> & Ho & Hp & Hq). destruct (hm_flow _ _ _ _ _ ok gp mask gn mn prev SP SN Ho Hp Hq) as (curr & status & E & L1 & L2 & [[X _]|(L3 & M & used & c & F & Hc & A)]); [discriminate|].
  rewrite E. exists (keep status curr), (keep status prev), M, used, c. rewrite !keep_survivors. split; [reflexivity|]. split; [split; [exact (own_followed V video gp mask prev gn mn curr status Ho SN E)|split; [exact L3|apply survivors_planar, Hq]]|]. split; [|auto].
  enough (X : length (survivors status curr) = length (survivors status prev)) by (rewrite X; exact L3).
  clear -L1 L2. unfold survivors. rewrite !map_length. revert status curr L1 L2. induction prev as [|p prev IH]; intros [|s status] [|q curr] L1 L2; try discriminate; auto.
  cbn. destruct s; cbn; [f_equal|]; apply IH; cbn in *; lia.
Qed.
Lemma hg_step data gn mn gp pp mask : shot V video gn mn -> shot V video gp mask -> hprev_ok gp mask pp -> hdata_ok gp data -> exists curr prev u data' h,
  sparse_flow V gn gp pp mask = Ret (curr, prev) /\ (own_points V video gp mask prev /\ (4 <= length prev)%nat /\ planar prev) /\
  hg_call find (@MkHG RNum thr data) (Some curr) (Some prev) = (@MkHG RNum thr data', Ret (u, Some h)) /\
  (exists m, homography_new m = Ret h /\ maps_to m gn) /\ hdata_ok (if u : bool then gn else gp) data'.
Proof.
  intros SN SP P Hd. destruct (hflow_found gn mn gp pp mask SN SP P) as (curr & prev & M & used & c & E & Lp & Lc & F & Hc & A). exists curr, prev.
  unfold hg_call, enough. pose proof (proj2 (Nat.leb_le _ _) (proj1 (proj2 Lp))) as Lp'. apply Nat.leb_le in Lc as Lc'. rewrite Lp', Lc'. cbn [andb]. rewrite F. cbn [hg_threshold hg_data].
  set (m := match data with Some d => mat3_mul M d | None => M end).
  replace (match data with Some d => Some (mat3_mul M d) | None => Some M end) with (Some m) by (unfold m; destruct data; reflexivity).
  assert (Hm : maps_to m gn).
  { unfold m. destruct data as [d|]; cbn in Hd.
    - destruct Hd as (c' & Hc' & A'). exists (c' * c). split; [apply Rmult_integral_contrapositive; auto|].
      intros w. rewrite apply3_mul, A', apply3_scale, A, scale3_scale. reflexivity.
    - subst gp. exists c. auto. }
  destruct (proj1 (homography_rejects m) (proj2 (invertible_det m) (maps_to_det m gn Hm))) as [h Eh]. rewrite Eh.
  destruct (@nltb RNum _ thr) eqn:T.
  - exists true, (Some m), h. split; [exact E|]. split; [exact Lp|]. split; [reflexivity|]. split; [eauto|exact Hm].
  - exists false, data, h. split; [exact E|]. split; [exact Lp|]. split; [reflexivity|]. split; [eauto|exact Hd].
Qed.
Definition hest_ok (s : estimator V (hgetter RNum)) : Prop :=
  exists gp data, me_gray_prvs s = Some gp /\ shot V video gp (me_prev_mask s) /\ hprev_ok gp (me_prev_mask s) (me_prev_pts s) /\ me_getter s = @MkHG RNum thr data /\ hdata_ok gp data.
Lemma hest_step s f mask g : (hest_ok s \/ (s = estimator_new V (@hg_new RNum thr) /\ g = g0)) -> In (f, mask) video -> to_gray V f = Ret g ->
  exists s' h m, estimator_update V (hg_call find) s f mask = (s', Ret (Some h)) /\ homography_new m = Ret h /\ maps_to m g /\ hest_ok s'.
Proof.
  intros Hs If Hg. assert (SN : shot V video g mask) by (exists f; auto). unfold estimator_update. rewrite Hg.
  destruct Hs as [(gp & data & E1 & SP & P & E2 & Hd)|[-> ->]].
  - rewrite E1. destruct (hg_step data g mask gp (me_prev_pts s) (me_prev_mask s) SN SP P Hd) as (curr & prev & u & data' & h & E3 & Hp & E4 & (m & Eh & Hm) & Hd').
    rewrite E3, E2, E4. destruct u; eexists; exists h, m; (split; [reflexivity|]); (split; [exact Eh|]); (split; [exact Hm|]).
    + exists g, data'. cbn. auto.
    + exists gp, data'. cbn. auto.
  - destruct (hg_step None g0 mask g0 None mask SN SN I eq_refl) as (curr & prev & u & data' & h & E3 & Hp & E4 & (m & Eh & Hm) & Hd').
    cbn [estimator_new me_gray_prvs me_prev_pts me_getter]. unfold hg_new. rewrite E3.
    match goal with |- context [hg_call find ?a ?b ?c] => replace (hg_call find a b c) with (@MkHG RNum thr data', @Ret (bool * option (homography RNum)) (u, Some h)) by (symmetry; exact E4) end.
    destruct u; eexists; exists h, m; (split; [reflexivity|]); (split; [exact Eh|]); (split; [exact Hm|]).
    + exists g0, data'. cbn. auto.
    + exists g0, data'. cbn. auto.
Qed.
Lemma hest_video frames : incl frames video -> forall s, hest_ok s -> forall t f mask g, nth_error frames t = Some (f, mask) -> to_gray V f = Ret g ->
  exists h m, nth_error (estimate_video V (hg_call find) s frames) t = Some (Ret (Some h)) /\ homography_new m = Ret h /\ maps_to m g.
Proof.
  induction frames as [|[f0 m0] frames IH]; intros Hi s Hs [|t] f mask g Hn Hg; try discriminate.
  - injection Hn as -> ->. cbn. destruct (hest_step s f mask g (or_introl Hs) (Hi _ (or_introl eq_refl)) Hg) as (s' & h & m & -> & Eh & Hm & _). eauto.
  - cbn. destruct (hm_gray _ _ _ _ _ ok f0 m0 (Hi _ (or_introl eq_refl))) as [g' Hg']. destruct (hest_step s f0 m0 g' (or_introl Hs) (Hi _ (or_introl eq_refl)) Hg') as (s' & h & m & -> & _ & _ & Hs').
    cbn. exact (IH (fun x Hx => Hi x (or_intror Hx)) s' Hs' t f mask g Hn Hg).
Qed.
Lemma maps_to_ct m g h w : homography_new m = Ret h -> maps_to m g -> depth (apply3 (H g0) w) <> 0 -> depth (apply3 (H g) w) <> 0 ->
  ct_abs_to_rel (homography_ct h) [dehomogenize (apply3 (H g0) w)] = [dehomogenize (apply3 (H g) w)] /\
  ct_rel_to_abs (homography_ct h) [dehomogenize (apply3 (H g) w)] = [dehomogenize (apply3 (H g0) w)].
Proof.
  intros Eh (c & Hc & A) D0 D. assert (Dm : (det3 m : R) <> 0) by (apply (maps_to_det m g); exists c; auto).
  unfold homography_new in Eh. destruct (inv3_ok m Dm) as (i & Ei & H1 & H2). rewrite Ei in Eh. injection Eh as <-. cbn. split; f_equal.
  - apply (project_moves m _ _ c); auto.
  - apply (project_moves i _ _ (/ c)); auto; [|apply Rinv_neq_0_compat; auto].
    rewrite <- (H1 (apply3 (H g0) w)), A, apply3_scale, scale3_scale. replace (/ c * c) with 1 by (field; auto). rewrite scale3_one. reflexivity.
Qed.
End Camera.

Lemma camera_homography V find (thr : R) (H : gray_t V -> M3) f0 m0 frames g0 t f mask g :
  homography_measures false V ((f0, m0) :: frames) find H -> to_gray V f0 = Ret g0 ->
  nth_error ((f0, m0) :: frames) t = Some (f, mask) -> to_gray V f = Ret g ->
  exists h, nth_error (estimate_video V (hg_call find) (estimator_new V (@hg_new RNum thr)) ((f0, m0) :: frames)) t = Some (Ret (Some h)) /\
  forall w, depth (apply3 (H g0) w) <> 0 -> depth (apply3 (H g) w) <> 0 ->
    ct_abs_to_rel (homography_ct h) [dehomogenize (apply3 (H g0) w)] = [dehomogenize (apply3 (H g) w)] /\
    ct_rel_to_abs (homography_ct h) [dehomogenize (apply3 (H g) w)] = [dehomogenize (apply3 (H g0) w)].
Proof.
  intros ok H0 Hn Hg.
  assert (X : exists h m, nth_error (estimate_video V (hg_call find) (estimator_new V (@hg_new RNum thr)) ((f0, m0) :: frames)) t = Some (Ret (Some h)) /\
              homography_new m = Ret h /\ maps_to V H g0 m g).
  { destruct t as [|t].
    - injection Hn as -> ->. rewrite H0 in Hg. injection Hg as ->. cbn [estimate_video].
      destruct (hest_step V find thr H _ ok g _ f mask g (or_intror (conj eq_refl eq_refl)) (or_introl eq_refl) H0) as (s' & h & m & E & Eh & Hm & _).
      rewrite E. exists h, m. split; [reflexivity|auto].
    - cbn [estimate_video].
      destruct (hest_step V find thr H _ ok g0 _ f0 m0 g0 (or_intror (conj eq_refl eq_refl)) (or_introl eq_refl) H0) as (s' & h & m & E & _ & _ & Hs').
      rewrite E. exact (hest_video V find thr H _ ok g0 frames (fun x Hx => or_intror Hx) s' Hs' t f mask g Hn Hg). }
  destruct X as (h & m & E & Eh & Hm). exists h. split; [exact E|]. intros w. exact (maps_to_ct V find H _ ok g0 m g h w Eh Hm).
Qed.

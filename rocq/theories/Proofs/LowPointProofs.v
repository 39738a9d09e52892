From Coq Require Import ZArith Reals Lra Bool Arith List Lia.
From Verif Require Import Model.Num Model.Base Model.Tracker Model.CameraMotion Spec.CameraSpec Spec.LowPointSpec Proofs.CameraProofs Proofs.HomographyProofs.
Import ListNotations.
Local Open Scope R_scope.

Section Low.
Variables (V : vision RNum) (find : points RNum -> points RNum -> result (option M3 * option (list bool))) (thr : R) (H : gray_t V -> M3).
Variable video : list (frame_t V * option (mask_t V)).
Hypothesis ok : homography_measures true V video find H.

(** [m] maps the images under [A] to image [g], up to a factor. *)
Definition maps (A m : M3) (g : gray_t V) : Prop := exists c, c <> 0 /\ forall w, apply3 m (apply3 A w) = scale3 c (apply3 (H g) w).
Definition pose_data (A : M3) (gp : gray_t V) (d : option M3) : Prop := match d with None => forall w, apply3 A w = apply3 (H gp) w | Some m => maps A m gp end.
Notation prev_ok := (hprev_ok V video).

Lemma maps_det A m g : invertible A -> maps A m g -> (det3 m : R) <> 0.
Proof.
  intros (i0 & A0 & B0) (c & Hc & E). apply invertible_det. destruct (hm_invertible _ _ _ _ _ ok g) as (i & A1 & B).
  assert (Em : forall v, apply3 m v = scale3 c (apply3 (H g) (apply3 i0 v))) by (intros v; rewrite <- E, B0; reflexivity).
  set (n := mat3_mul A (mat3_mul (@MkM RNum (/ c) 0 0 0 (/ c) 0 0 0 (/ c)) i)).
  assert (En : forall v, apply3 n v = apply3 A (scale3 (/ c) (apply3 i v))).
  { intros v. unfold n. rewrite !apply3_mul. f_equal. destruct (apply3 i v) as [[x y] z]. unfold apply3, scale3. cbn. (f_equal; [f_equal|]); ring. }
  exists n. split; intros v.
  - rewrite En, Em, !apply3_scale, A1, B0, scale3_scale. replace (/ c * c) with 1 by (field; auto). apply scale3_one.
  - rewrite Em, En, A0, !apply3_scale, B, scale3_scale. replace (c * / c) with 1 by (field; auto). apply scale3_one.
Qed.
Lemma maps_takes A m g h : invertible A -> homography_new m = Ret h -> maps A m g -> takes h A (H g).
Proof.
  intros IA Eh (c & Hc & E) w D0 D. assert (Dm : (det3 m : R) <> 0) by (apply (maps_det A m g IA); exists c; auto).
  unfold homography_new in Eh. destruct (inv3_ok m Dm) as (i & Ei & H1 & H2). rewrite Ei in Eh. injection Eh as <-. cbn. split; f_equal.
  - apply (project_moves m _ _ c); auto.
  - apply (project_moves i _ _ (/ c)); auto; [|apply Rinv_neq_0_compat; auto].
    rewrite <- (H1 (apply3 A w)), E, apply3_scale, scale3_scale. replace (/ c * c) with 1 by (field; auto). rewrite scale3_one. reflexivity.
Qed.

Lemma survivors_length {A B} (status : list bool) : forall (a : list A) (b : list B), length a = length b -> length (survivors status a) = length (survivors status b).
Proof.
  unfold survivors. induction status as [|s status IH]; intros a b L; [reflexivity|]. destruct a as [|x a], b as [|y b]; try discriminate; [destruct s; reflexivity|].
  cbn in L. injection L as L. cbn. destruct s; cbn; [f_equal|]; apply IH, L.
Qed.
(** What OpenCV reports: at least four points and the right homography, or fewer than four. *)
Lemma flow_cases gn mn gp pp mask : shot V video gn mn -> shot V video gp mask -> prev_ok gp mask pp -> exists curr prev, sparse_flow V gn gp pp mask = Ret (curr, prev) /\ length curr = length prev /\
  ((length prev < 4)%nat \/
   (own_points V video gp mask prev /\ (4 <= length prev)%nat /\ planar prev) /\ exists M used c, find prev curr = Ret (Some M, Some used) /\ c <> 0 /\
   forall w, apply3 M (apply3 (H gp) w) = scale3 c (apply3 (H gn) w)).
Proof.
  intros SN SP P. unfold sparse_flow.
  assert (E : exists prev, (match pp with Some p => Ret (Some p) | None => corners V gp mask end) = Ret (Some prev) /\ own_points V video gp mask prev /\ (4 <= length prev)%nat /\ planar prev).
  { destruct pp as [p|]; [exists p; auto|]. destruct (hm_corners _ _ _ _ _ ok gp mask SP) as (p & E & Hp). exists p. split; [exact E|]. split; [constructor; exact E|exact Hp]. }
  destruct E as (prev & -> & Ho & Hp & Hq). destruct (hm_flow _ _ _ _ _ ok gp mask gn mn prev SP SN Ho Hp Hq) as (curr & status & E & L1 & L2 & C).
  rewrite E. exists (keep status curr), (keep status prev). rewrite !keep_survivors. split; [reflexivity|]. split; [apply survivors_length, L1|].
  destruct C as [[_ L]|(L3 & M & used & c & F & Hc & A)]; [left; exact L|right].
  split; [split; [exact (own_followed V video gp mask prev gn mn curr status Ho SN E)|split; [exact L3|apply survivors_planar, Hq]]|]. eauto 10.
Qed.

(** The estimator takes [A] for the first image. *)
Definition pose_ok (A : M3) (s : estimator V (hgetter RNum)) : Prop :=
  exists gp data, me_gray_prvs s = Some gp /\ shot V video gp (me_prev_mask s) /\ prev_ok gp (me_prev_mask s) (me_prev_pts s) /\ me_getter s = @MkHG RNum thr data /\ pose_data A gp data.
Definition start_ok (A : M3) (s : estimator V (hgetter RNum)) (g : gray_t V) : Prop :=
  pose_ok A s \/ s = estimator_new V (@hg_new RNum thr) /\ forall w, apply3 A w = apply3 (H g) w.

(** The state as seen by the next frame. *)
Lemma start_state A s g m : start_ok A s g -> shot V video g m -> exists gp mp data, reference V s g m = (gp, mp) /\ shot V video gp mp /\ prev_ok gp mp (me_prev_pts s) /\
  me_getter s = @MkHG RNum thr data /\ pose_data A gp data /\ me_gray_prvs s = match me_gray_prvs s with Some _ => Some gp | None => None end.
Proof.
  intros [(gp & data & E1 & S1 & P & E2 & D)|[-> D]] SN.
  - exists gp, (me_prev_mask s), data. unfold reference. rewrite E1. auto 10.
  - exists g, m, None. unfold reference. cbn. auto 10.
Qed.

Lemma pose_step A s f m g : invertible A -> start_ok A s g -> In (f, m) video -> to_gray V f = Ret g ->
  exists s' r, estimator_update V (hg_call find) s f m = (s', Ret r) /\
  ((low_points V s g m /\ (r = None \/ exists h, r = Some h /\ takes h A (H (fst (reference V s g m)))) /\
    exists A', invertible A' /\ pose_ok A' s' /\ forall v w, apply3 (H (fst (reference V s g m))) v = apply3 (H g) w -> apply3 A' w = apply3 A v) \/
   (~ low_points V s g m /\ (exists h, r = Some h /\ takes h A (H g)) /\ pose_ok A s')).
Proof.
  intros IA Hs If Hg. assert (SN : shot V video g m) by (exists f; auto).
  destruct (start_state A s g m Hs SN) as (gp & mp & data & ER & SP & P & EG & HD & _).
  destruct (flow_cases g m gp (me_prev_pts s) mp SN SP P) as (curr & prev & EF & LL & C).
  assert (EU : estimator_update V (hg_call find) s f m =
    let '(getter, update_prvs, transformation) := match hg_call find (@MkHG RNum thr data) (Some curr) (Some prev) with (g, Ret (u, t)) => (g, u, t) | (_, Raise _) => (me_getter_copy s, true, None) end in
    ((if update_prvs : bool then MkEst (Some g) None m getter (me_getter_copy s) else MkEst (Some gp) (Some prev) mp getter (me_getter_copy s)), Ret transformation)).
  { unfold estimator_update. rewrite Hg. unfold reference in ER. destruct (me_gray_prvs s) as [gq|].
    - injection ER as -> ->. rewrite EF, EG. reflexivity.
    - injection ER as -> ->. rewrite EF, EG. reflexivity. }
  assert (EFl : flow V s g m = Ret (curr, prev)) by (unfold flow; rewrite ER; exact EF).
  rewrite EU, ER. cbn [fst]. destruct C as [Low|((Ho & Lp & Lq) & M & used & c & F & Hc & E)].
  - assert (EC : hg_call find (@MkHG RNum thr data) (Some curr) (Some prev) =
      match data with Some m => match homography_new m with Raise e => (@MkHG RNum thr data, Raise e) | Ret h => (@MkHG RNum thr data, Ret (true, Some h)) end | None => (@MkHG RNum thr data, Ret (true, None)) end).
    { unfold hg_call, enough. rewrite (proj2 (Nat.leb_gt _ _) Low). cbn [andb]. reflexivity. }
    rewrite EC. destruct (hm_invertible _ _ _ _ _ ok gp) as (ip & I1 & I2).
    set (A' := mat3_mul A (mat3_mul ip (H g))).
    assert (EA : forall w, apply3 A' w = apply3 A (apply3 ip (apply3 (H g) w))) by (intros w; unfold A'; rewrite !apply3_mul; reflexivity).
    assert (IA' : invertible A').
    { destruct IA as (ia & J1 & J2). destruct (hm_invertible _ _ _ _ _ ok g) as (ig & K1 & K2). exists (mat3_mul ig (mat3_mul (H gp) ia)). split; intros v.
      - rewrite EA, !apply3_mul, J1, I2, K1. reflexivity.
      - rewrite EA, !apply3_mul, K2, I1, J2. reflexivity. }
    assert (AH : forall v w, apply3 (H gp) v = apply3 (H g) w -> apply3 A' w = apply3 A v) by (intros v w X; rewrite EA, <- X, I1; reflexivity).
    assert (LP : low_points V s g m) by (exists curr, prev; auto).
    destruct data as [d|].
    + cbn in HD. destruct (proj1 (homography_rejects d) (proj2 (invertible_det d) (maps_det A d gp IA HD))) as [h Eh]. rewrite Eh. eexists. exists (Some h). split; [reflexivity|]. left.
      split; [exact LP|]. split; [right; exists h; split; [reflexivity|exact (maps_takes A d gp h IA Eh HD)]|]. exists A'. split; [exact IA'|]. split; [|exact AH].
      exists g, (Some d). cbn. repeat (split; [reflexivity||exact SN||exact I|]). destruct HD as (c & Hc & E). exists c. split; [exact Hc|]. intros w. rewrite EA, E, I2. reflexivity.
    + eexists. exists None. split; [reflexivity|]. left. split; [exact LP|]. split; [left; reflexivity|]. exists A'. split; [exact IA'|]. split; [|exact AH].
      exists g, None. cbn. repeat (split; [reflexivity||exact SN||exact I|]). intros w. rewrite EA. cbn in HD. rewrite HD, I2. reflexivity.
  - assert (NL : ~ low_points V s g m). { intros (c1 & p1 & X & Y). rewrite EFl in X. injection X as <- <-. lia. }
    set (mm := match data with Some d => mat3_mul M d | None => M end).
    assert (Hm : maps A mm g).
    { unfold mm. destruct data as [d|]; cbn in HD.
      - destruct HD as (c' & Hc' & E'). exists (c' * c). split; [apply Rmult_integral_contrapositive; auto|]. intros w. rewrite apply3_mul, E', apply3_scale, E, scale3_scale. reflexivity.
      - exists c. split; [exact Hc|]. intros w. rewrite HD. apply E. }
    destruct (proj1 (homography_rejects mm) (proj2 (invertible_det mm) (maps_det A mm g IA Hm))) as [h Eh].
    assert (EC : exists u : bool, hg_call find (@MkHG RNum thr data) (Some curr) (Some prev) = (@MkHG RNum thr (if u then Some mm else data), Ret (u, Some h))).
    { unfold hg_call, enough. rewrite (proj2 (Nat.leb_le _ _) Lp). assert (Lc : (4 <= length curr)%nat) by lia. rewrite (proj2 (Nat.leb_le _ _) Lc). cbn [andb]. rewrite F. cbn [hg_threshold hg_data].
      replace (match data with Some d => Some (mat3_mul M d) | None => Some M end) with (Some mm) by (unfold mm; destruct data; reflexivity). rewrite Eh.
      destruct (@nltb RNum _ thr); [exists true|exists false]; reflexivity. }
    destruct EC as (u & ->). destruct u; eexists; exists (Some h); (split; [reflexivity|]); right; (split; [exact NL|]); (split; [exists h; split; [reflexivity|exact (maps_takes A mm g h IA Eh Hm)]|]).
    + exists g, (Some mm). cbn. auto.
    + exists gp, data. cbn. auto 10.
Qed.

Definition frame_law (s : estimator V (hgetter RNum)) (g : gray_t V) (m : option (mask_t V)) (returned : option (homography RNum) -> Prop) (A A' : M3) : Prop :=
  invertible A /\ (~ low_points V s g m -> A' = A /\ exists h, returned (Some h) /\ takes h A (H g)) /\
  (low_points V s g m -> (returned None \/ exists h, returned (Some h) /\ takes h A (H (fst (reference V s g m)))) /\
     forall v w, apply3 (H (fst (reference V s g m))) v = apply3 (H g) w -> apply3 A' w = apply3 A v).
Lemma poses frames : incl frames video -> forall s A, invertible A ->
  (pose_ok A s \/ s = estimator_new V (@hg_new RNum thr) /\ forall f m fs g, frames = (f, m) :: fs -> to_gray V f = Ret g -> forall w, apply3 A w = apply3 (H g) w) ->
  exists pose : nat -> M3, pose 0%nat = A /\ forall t f m g, nth_error frames t = Some (f, m) -> to_gray V f = Ret g ->
    frame_law (after_frames V (hg_call find) s (firstn t frames)) g m (fun r => nth_error (estimate_video V (hg_call find) s frames) t = Some (Ret r)) (pose t) (pose (S t)).
Proof.
  induction frames as [|[f0 m0] frames IH]; intros Hi s A IA Hs.
  { exists (fun _ => A). split; [reflexivity|]. intros [|t] f m g Hn; discriminate. }
  destruct (hm_gray _ _ _ _ _ ok f0 m0 (Hi _ (or_introl eq_refl))) as [g0 Hg0].
  assert (St : start_ok A s g0) by (destruct Hs as [Hs|[E Hs]]; [left; exact Hs|right; split; [exact E|exact (Hs f0 m0 frames g0 eq_refl Hg0)]]).
  destruct (pose_step A s f0 m0 g0 IA St (Hi _ (or_introl eq_refl)) Hg0) as (s' & r & EU & C).
  assert (Next : exists A', invertible A' /\ pose_ok A' s' /\ (~ low_points V s g0 m0 -> A' = A) /\
    (low_points V s g0 m0 -> forall v w, apply3 (H (fst (reference V s g0 m0))) v = apply3 (H g0) w -> apply3 A' w = apply3 A v)).
  { destruct C as [(L & _ & A' & IA' & P & X)|(L & _ & P)]; [exists A'|exists A]; repeat split; auto; contradiction. }
  destruct Next as (A' & IA' & P & N1 & N2). destruct (IH (fun x Hx => Hi x (or_intror Hx)) s' A' IA' (or_introl P)) as (pose & E0 & HP).
  exists (fun t => match t with O => A | S t => pose t end). split; [reflexivity|]. intros [|t] f m g Hn Hg.
  - cbn in Hn. injection Hn as -> ->. rewrite Hg0 in Hg. injection Hg as ->. cbn [firstn after_frames estimate_video nth_error]. rewrite EU, E0. split; [exact IA|]. split.
    + intros L. split; [exact (N1 L)|]. destruct C as [(L' & _)|(_ & (h & -> & T) & _)]; [contradiction|]. exists h. auto.
    + intros L. split; [|exact (N2 L)]. destruct C as [(_ & [->|(h & -> & T)] & _)|(L' & _)]; [left; reflexivity|right; exists h; auto|contradiction].
  - cbn in Hn. specialize (HP t f m g Hn Hg). cbn [firstn after_frames estimate_video nth_error]. rewrite EU. exact HP.
Qed.
End Low.

Lemma low_point_poses V find (thr : R) (H : gray_t V -> M3) f0 m0 frames g0 :
  let video := (f0, m0) :: frames in
  homography_measures true V video find H -> to_gray V f0 = Ret g0 ->
  exists pose : nat -> M3, pose 0%nat = H g0 /\ forall t f m g, nth_error video t = Some (f, m) -> to_gray V f = Ret g ->
    let s := before_frame V find thr video t in let r := fst (reference V s g m) in
    invertible (pose t) /\
    (~ low_points V s g m -> pose (S t) = pose t /\ exists h, returned_for V find thr video t (Some h) /\ takes h (pose t) (H g)) /\
    (low_points V s g m ->
      (returned_for V find thr video t None \/ exists h, returned_for V find thr video t (Some h) /\ takes h (pose t) (H r)) /\
      forall v w, apply3 (H r) v = apply3 (H g) w -> apply3 (pose (S t)) w = apply3 (pose t) v).
Proof.
  intros video ok H0. destruct (poses V find thr H video ok video (fun x Hx => Hx) (estimator_new V (@hg_new RNum thr)) (H g0) (hm_invertible _ _ _ _ _ ok g0)) as (pose & E & HP).
  { right. split; [reflexivity|]. intros f m fs g X Hg w. injection X as <- <- <-. rewrite H0 in Hg. injection Hg as ->. reflexivity. }
  exists pose. split; [exact E|exact HP].
Qed.
Lemma low_point_stretch V find (thr : R) (H : gray_t V -> M3) f0 m0 frames g0 a b :
  let video := (f0, m0) :: frames in
  homography_measures true V video find H -> to_gray V f0 = Ret g0 ->
  (forall t f m g, (a <= t < b)%nat -> nth_error video t = Some (f, m) -> to_gray V f = Ret g -> ~ low_points V (before_frame V find thr video t) g m) ->
  exists A, invertible A /\ (a = 0%nat -> A = H g0) /\ forall t f m g, (a <= t < b)%nat -> nth_error video t = Some (f, m) -> to_gray V f = Ret g ->
    exists h, returned_for V find thr video t (Some h) /\ takes h A (H g).
Proof.
  intros video ok H0 NL. destruct (low_point_poses V find thr H f0 m0 frames g0 ok H0) as (pose & E & HP). fold video in HP.
  destruct (Nat.lt_ge_cases a (length video)) as [La|La].
  - assert (Ga : exists f m g, nth_error video a = Some (f, m) /\ to_gray V f = Ret g).
    { destruct (nth_error video a) as [[f m]|] eqn:En; [|apply nth_error_None in En; lia]. destruct (hm_gray _ _ _ _ _ ok f m (nth_error_In _ _ En)) as [g Hg]. eauto. }
    destruct Ga as (fa & ma & ga & Ga & Ha). exists (pose a). split; [exact (proj1 (HP a fa ma ga Ga Ha))|]. split; [intros ->; exact E|].
    assert (K : forall k, (a + k < b)%nat -> (a + k < length video)%nat -> pose (a + k)%nat = pose a).
    { induction k as [|k IH]; intros L1 L2; [f_equal; lia|]. rewrite <- (IH ltac:(lia) ltac:(lia)). replace (a + S k)%nat with (S (a + k)) by lia.
      destruct (nth_error video (a + k)) as [[f m]|] eqn:En; [|apply nth_error_None in En; lia]. destruct (hm_gray _ _ _ _ _ ok f m (nth_error_In _ _ En)) as [g Hg].
      exact (proj1 (proj1 (proj2 (HP _ f m g En Hg)) (NL (a + k)%nat f m g ltac:(lia) En Hg))). }
    intros t f m g Lt Hn Hg. destruct (proj1 (proj2 (HP t f m g Hn Hg)) (NL t f m g Lt Hn Hg)) as (_ & h & R & T). exists h. split; [exact R|].
    replace (pose a) with (pose t); [exact T|]. replace t with (a + (t - a))%nat by lia. apply K; [lia|]. replace (a + (t - a))%nat with t by lia. apply nth_error_Some. congruence.
  - exists (H g0). split; [exact (hm_invertible _ _ _ _ _ ok g0)|]. split; [reflexivity|]. intros t f m g Lt Hn. exfalso.
    assert (X : (t < length video)%nat) by (apply nth_error_Some; congruence). lia.
Qed.

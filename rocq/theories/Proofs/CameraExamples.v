(** The concrete camera of [Spec.ExampleCamera]. *)
From Coq Require Import ZArith QArith Reals Lra Lia Bool Arith List.
From Verif Require Import Model.Num Model.Base Model.Tracker Model.CameraMotion
  Spec.BuiltinSpec Spec.CameraSpec Spec.LowPointSpec Spec.ExampleCamera Proofs.RingNums Proofs.BuiltinProofs Proofs.BuiltinProofs2 Proofs.CameraProofs Proofs.HomographyProofs.
Import ListNotations.
Local Open Scope R_scope.

Lemma ex_around_int k : ex_around (IZR k) = IZR k.
Proof.
  unfold ex_around, Int_part. rewrite <- (tech_up (IZR k + / 2) (k + 1)); [f_equal; lia| |]; rewrite plus_IZR; lra.
Qed.
Lemma survivors_all {A B} (l : list A) : forall m : list B, length m = length l -> survivors (map (fun _ => true) l) m = m.
Proof.
  unfold survivors. induction l as [|x l IH]; intros [|y m] H; try discriminate; auto. cbn. f_equal. apply IH. cbn in H. lia.
Qed.
Lemma survivors_none {A B} (l : list A) : forall m : list B, survivors (map (fun _ => false) l) m = [].
Proof. unfold survivors. induction l as [|x l IH]; intros [|y m]; auto. cbn. apply IH. Qed.
(** A constant list has a clear mode. *)
Lemma constant_mode {A} (v : A) l : l <> [] -> Forall (fun x => x = v) l -> clear_mode v l.
Proof.
  intros Hl F. assert (Nth : forall i, (i < length l)%nat -> nth_error l i = Some v).
  { intros i Hi. destruct (nth_error l i) as [x|] eqn:E; [|apply nth_error_None in E; lia].
    rewrite Forall_forall in F. rewrite (F x (nth_error_In _ _ E)). reflexivity. }
  exists (length l). split; [|split].
  - exists (seq 0 (length l)). split; [apply seq_NoDup|]. split; [|apply seq_length].
    intros i. rewrite in_seq. split; [intros [_ H]; split; [exact H|apply Nth, H]|intros [H _]; lia].
  - destruct l; [congruence|]. cbn. lia.
  - intros w m Hw (q & _ & Iq & <-). assert (q = []); [|subst q; destruct l; [congruence|cbn; lia]].
    destruct q as [|i q]; auto. destruct (proj1 (Iq i) (or_introl eq_refl)) as [Hi X]. rewrite (Nth i Hi) in X. congruence.
Qed.

Lemma ex_flow_measures video : flow_measures (ex_vision never) video ex_around 1 ex_displacement.
Proof.
  split.
  - intros f m _. exists f. reflexivity.
  - intros g m _. exists ex_corners. split; [reflexivity|]. split; [discriminate|]. repeat constructor.
  - intros g m g' m' prev _ _ _ Hne Hp. eexists. eexists. split; [reflexivity|]. split; [apply map_length|]. split; [apply map_length|].
    cbn [negb never]. rewrite !survivors_all by (rewrite ?map_length; reflexivity). apply constant_mode.
    + destruct prev; [congruence|]. discriminate.
    + unfold flow_vectors. apply Forall_forall. intros x Hx. apply in_map_iff in Hx as ([c p] & <- & Hc).
      assert (Ec : c = @shifted_by RNum [IZR (g' - g); 0] p /\ In p prev).
      { clear -Hc. induction prev as [|q prev IH]; [destruct Hc|]. destruct Hc as [E|Hc].
        - injection E as <- <-. split; [reflexivity|]. left. reflexivity.
        - destruct (IH Hc). split; auto. right. auto. }
      destruct Ec as [-> Hin]. unfold planar in Hp. rewrite Forall_forall in Hp. specialize (Hp p Hin).
      destruct p as [|a [|b [|]]]; try discriminate. unfold shifted_by, ex_displacement. cbn.
      replace ((a + IZR (g' - g) - a) / 1) with (IZR (g' - g)) by field. replace ((b + 0 - b) / 1) with 0 by field.
      rewrite ex_around_int. pose proof (ex_around_int 0) as E0. change (IZR 0) with 0 in E0. rewrite E0, minus_IZR.
      f_equal; [ring|]. f_equal. ring.
  - reflexivity.
Qed.

Lemma ex_shift_apply d e x y z : apply3 (ex_shift d e) (x, y, z) = (x + d * z, y + e * z, z).
Proof. unfold apply3, ex_shift. cbn. (f_equal; [f_equal|]); ring. Qed.
Lemma ex_shift_invertible d e : invertible (ex_shift d e).
Proof. apply invertible_det. unfold det3, ex_shift. cbn. lra. Qed.

Lemma ex_homography_measures low lost video : (low = true \/ forall g g', lost g g' = false) ->
  homography_measures low (ex_vision lost) video ex_find ex_homography.
Proof.
  intros Hl. split.
  - intros f m _. exists f. reflexivity.
  - intros g m _. exists ex_corners. split; [reflexivity|]. split; [cbn; lia|]. repeat constructor.
  - intros g m g' m' prev _ _ _ H4 Hp. eexists. eexists. split; [reflexivity|]. split; [apply map_length|]. split; [apply map_length|].
    destruct (lost g g') eqn:L; cbn [negb].
    + left. destruct Hl as [->|Hl]; [|rewrite Hl in L; discriminate]. split; [reflexivity|]. rewrite survivors_none. cbn. lia.
    + right. rewrite !survivors_all by (rewrite ?map_length; reflexivity). split; [exact H4|].
      destruct prev as [|row prev]; [cbn in H4; lia|]. inversion Hp as [|? ? Hr Hp']; subst.
      destruct row as [|a [|b [|]]]; try discriminate.
      exists (ex_shift (IZR (g' - g)) 0). eexists. exists 1. split; [|split; [lra|]].
      * unfold ex_find, shifted_by. cbn. repeat f_equal; ring.
      * intros [[x y] z]. unfold ex_homography. rewrite !ex_shift_apply. unfold scale3. rewrite minus_IZR. (f_equal; [f_equal|]); ring.
  - intros g. apply ex_shift_invertible.
Qed.

Lemma shift_new d : exists h, homography_new (ex_shift d 0) = Ret h.
Proof. apply homography_rejects, ex_shift_invertible. Qed.
Lemma all_used (thr : R) : thr <= 1 ->
  @nltb RNum (ndiv (n_of_nat 4) (n_of_nat 4)) thr = false.
Proof.
  intros H. unfold n_of_nat. cbn [nltb ndiv nofQ RNum]. replace (Q2R (inject_Z (Z.of_nat 4))) with 4 by (unfold Q2R; cbn; lra).
  replace (4 / 4) with 1 by lra. unfold Rltb. destruct (Rlt_dec 1 thr); [lra|reflexivity].
Qed.

(** ** Points lost on the way: the accumulated motion is forgotten *)
Section Drift.
Variable thr : R.
Hypothesis Ht : thr <= 1.
Definition lost1 (g g' : Z) : bool := Z.eqb g' 1.

Lemma find_call k h : homography_new (ex_shift (IZR k) 0) = Ret h ->
  hg_call ex_find (@MkHG RNum thr None) (Some (map (@shifted_by RNum [IZR k; 0]) ex_corners)) (Some ex_corners) = (@MkHG RNum thr None, Ret (false, Some h)).
Proof.
  intros E.
  assert (F : ex_find ex_corners (map (@shifted_by RNum [IZR k; 0]) ex_corners) = Ret (Some (ex_shift (IZR k) 0), Some [true; true; true; true])).
  { unfold ex_find, shifted_by. cbn. repeat f_equal; ring. }
  unfold hg_call. change (enough (Some ex_corners) && enough (Some (map (@shifted_by RNum [IZR k; 0]) ex_corners)))%bool with true. cbv iota.
  rewrite F. cbn [hg_threshold hg_data].
  change (length (filter (fun b : bool => b) [true; true; true; true])) with 4%nat. change (length [true; true; true; true]) with 4%nat.
  rewrite (all_used thr Ht), E. reflexivity.
Qed.
Lemma keep_all {A} (l : list A) (m : list A) : keep (map (fun _ => true) l) m = survivors (map (fun _ => true) l) m.
Proof. apply keep_survivors. Qed.
Lemma ex_sparse lost gn gp mask : lost gp gn = false ->
  sparse_flow (ex_vision lost) gn gp None mask = Ret (map (@shifted_by RNum [IZR (gn - gp); 0]) ex_corners, ex_corners).
Proof. intros E. unfold sparse_flow. cbn [corners optical_flow ex_vision]. rewrite E. reflexivity. Qed.

Lemma step_from gp gn mask h : lost1 gp gn = false -> homography_new (ex_shift (IZR (gn - gp)) 0) = Ret h ->
  forall m c, estimator_update (ex_vision lost1) (hg_call ex_find) (@MkEst RNum (ex_vision lost1) _ (Some gp) None m (@MkHG RNum thr None) c) gn mask
  = (@MkEst RNum (ex_vision lost1) _ (Some gp) (Some ex_corners) m (@MkHG RNum thr None) c, Ret (Some h)).
Proof.
  intros L E m c. unfold estimator_update. cbn [to_gray ex_vision me_gray_prvs me_prev_pts me_prev_mask me_getter me_getter_copy].
  pose proof (ex_sparse lost1 gn gp m L) as S. cbn [ex_vision] in S. rewrite S.
  match goal with |- context [hg_call ex_find ?a ?b ?c] =>
    replace (hg_call ex_find a b c) with (@MkHG RNum thr None, @Ret (bool * option (homography RNum)) (false, Some h))
      by (symmetry; exact (find_call (gn - gp) h E)) end. reflexivity.
Qed.
Lemma step_lost gp mask : forall m c, estimator_update (ex_vision lost1) (hg_call ex_find)
    (@MkEst RNum (ex_vision lost1) _ (Some gp) (Some ex_corners) m (@MkHG RNum thr None) c) 1%Z mask
  = (@MkEst RNum (ex_vision lost1) _ (Some 1%Z) None mask (@MkHG RNum thr None) c, Ret None).
Proof. reflexivity. Qed.
End Drift.

Lemma three_frames {N : Num} {G T} (V : vision N) (call : G -> option (points N) -> option (points N) -> G * result (bool * option T))
    s f0 f1 f2 s1 s2 s3 r0 r1 r2 : 
  estimator_update V call s f0 None = (s1, r0) -> estimator_update V call s1 f1 None = (s2, r1) -> estimator_update V call s2 f2 None = (s3, r2) ->
  nth_error (estimate_video V call s (map (fun z => (z, None)) [f0; f1; f2])) 2 = Some r2.
Proof. intros E0 E1 E2. cbn. rewrite E0, E1, E2. reflexivity. Qed.

Lemma drift : exists frames t, homography_measures true (ex_vision lost1) (map (fun z => (z, None)) frames) ex_find ex_homography /\
  exists h w,
    nth_error (estimate_video (ex_vision lost1) (hg_call ex_find) (estimator_new (ex_vision lost1) (@hg_new RNum (9 / 10)))
                 (map (fun z => (z, None)) frames)) t = Some (Ret (Some h)) /\
    nth_error frames 0 = Some 0%Z /\ nth_error frames t = Some 2%Z /\
    depth (apply3 (ex_homography 0) w) <> 0 /\ depth (apply3 (ex_homography 2) w) <> 0 /\
    ct_abs_to_rel (homography_ct h) [dehomogenize (apply3 (ex_homography 0) w)] <> [dehomogenize (apply3 (ex_homography 2) w)].
Proof.
  exists [0; 1; 2]%Z, 2%nat. split; [apply ex_homography_measures; auto|].
  destruct (shift_new (IZR 0)) as [h0 E0]. destruct (shift_new (IZR 1)) as [h1 E1]. exists h1, (0, 0, 1).
  split; [|split; [reflexivity|split; [reflexivity|split; [|split]]]].
  - assert (S0 : estimator_update (ex_vision lost1) (hg_call ex_find) (estimator_new (ex_vision lost1) (@hg_new RNum (9 / 10))) 0%Z None
       = (@MkEst RNum (ex_vision lost1) _ (Some 0%Z) (Some ex_corners) None (@MkHG RNum (9 / 10) None) (@MkHG RNum (9 / 10) None), Ret (Some h0))).
    { pose proof (step_from (9 / 10) ltac:(lra) 0 0 None h0 eq_refl E0 None (@MkHG RNum (9 / 10) None)) as S. exact S. }
    pose proof (step_lost (9 / 10) 0%Z None None (@MkHG RNum (9 / 10) None)) as S1.
    pose proof (step_from (9 / 10) ltac:(lra) 1 2 None h1 eq_refl E1 None (@MkHG RNum (9 / 10) None)) as S2.
    exact (three_frames _ _ _ _ _ _ _ _ _ _ _ _ S0 S1 S2).
  - unfold ex_homography. rewrite ex_shift_apply. unfold depth. cbn. lra.
  - unfold ex_homography. rewrite ex_shift_apply. unfold depth. cbn. lra.
  - assert (Em : h_matrix h1 = ex_shift (IZR 1) 0).
    { unfold homography_new in E1. destruct (inv3 (ex_shift (IZR 1) 0)); [|discriminate]. injection E1 as <-. reflexivity. }
    unfold ex_homography. rewrite !ex_shift_apply. unfold dehomogenize. cbn [ct_abs_to_rel homography_ct map]. rewrite Em.
    rewrite project_value by (rewrite ex_shift_apply; unfold depth; cbn; lra). rewrite ex_shift_apply. unfold dehomogenize.
    intros X. injection X as X1 X2. lra.
Qed.

(** ** A stale transformation after a failure of the optical flow *)
Lemma stale_transformation : exists frames h,
  let s := after_frames exq_vision (hg_call exq_find) (estimator_new exq_vision (@hg_new QNum 2%Q)) (map (fun z => (z, None)) frames) in
  flow exq_vision s 2%Z None = Raise ERuntimeError /\
  snd (estimator_update exq_vision (hg_call exq_find) s 2%Z None) = Ret (Some h).
Proof. exists [0; 1]%Z. eexists. split; vm_compute; reflexivity. Qed.

Lemma stale_is_reference : exists frames h,
  of_last_reference exq_vision (hg_call exq_find) (estimator_new exq_vision (@hg_new QNum 2%Q)) None frames = Some h /\
  (exists e, flow exq_vision (after_frames exq_vision (hg_call exq_find) (estimator_new exq_vision (@hg_new QNum 2%Q)) frames) 2%Z None = Raise e).
Proof. exists [(0%Z, None); (1%Z, None)]. eexists. split; [vm_compute; reflexivity|]. eexists. vm_compute; reflexivity. Qed.

Lemma low_points_drift : exists V find (thr : R) (H : gray_t V -> mat3 RNum) f0 frames t f g0 g h w,
  homography_measures true V (map (fun f => (f, None)) (f0 :: frames)) find H /\ to_gray V f0 = Ret g0 /\ to_gray V f = Ret g /\
  nth_error (f0 :: frames) t = Some f /\
  nth_error (estimate_video V (hg_call find) (estimator_new V (@hg_new RNum thr)) (map (fun f => (f, None)) (f0 :: frames))) t
      = Some (Ret (Some h)) /\
  depth (apply3 (H g0) w) <> 0 /\ depth (apply3 (H g) w) <> 0 /\
  ct_abs_to_rel (homography_ct h) [dehomogenize (apply3 (H g0) w)] <> [dehomogenize (apply3 (H g) w)].
Proof.
  destruct drift as (frames & t & M & h & w & E & E0 & Et & D0 & D2 & X). destruct frames as [|f0 frames]; [discriminate|].
  injection E0 as ->. exists (ex_vision lost1), ex_find, (9 / 10), ex_homography, 0%Z, frames, t, 2%Z, 0%Z, 2%Z, h, w.
  split; [exact M|]. split; [reflexivity|]. split; [reflexivity|]. split; [exact Et|]. split; [exact E|]. split; [exact D0|]. split; [exact D2|exact X].
Qed.
Lemma flow_failure_stale : exists (V : vision QNum) find thr frames f h,
  let s := after_frames V (hg_call find) (estimator_new V (@hg_new QNum thr)) frames in
  (exists g e, to_gray V f = Ret g /\ flow V s g None = Raise e) /\
  snd (estimator_update V (hg_call find) s f None) = Ret (Some h).
Proof.
  destruct stale_transformation as (frames & h & F & E).
  exists exq_vision, exq_find, 2%Q, (map (fun z => (z, None)) frames), 2%Z, h. split; [|exact E].
  exists 2%Z, ERuntimeError. split; [reflexivity|exact F].
Qed.

(** ** Concrete cases *)
Lemma RNum_eq : num_eq RNum.
Proof. intros x y. cbn. destruct (reqb_spec x y); split; auto; discriminate. Qed.
Lemma perspective_case : let m := @MkM RNum 1 0 2 0 1 3 (1 / 100) 0 1 in
  (exists h, homography_new m = Ret h) /\
  Forall (fun row => exists x y, row = [x; y] /\ depth (apply3 m (x, y, 1)) <> 0) [[1; 2]; [50; -3]].
Proof.
  intros m. split.
  - apply homography_rejects, invertible_det. unfold det3, m. cbn. lra.
  - constructor; [|constructor; [|constructor]]; eexists; eexists; (split; [reflexivity|]); unfold depth, apply3, m; cbn; lra.
Qed.
Lemma translation_case : num_eq RNum /\ flow_measures (ex_vision never) (map (fun z => (z, None)) [0; 3; 5; 1]%Z) ex_around 1 ex_displacement /\
  exists v, nth_error (estimate_video (ex_vision never) (@tg_call RNum ex_around) (estimator_new (ex_vision never) (@tg_new RNum 1 2))
      (map (fun z => (z, None)) [0; 3; 5; 1]%Z)) 2 = Some (Ret (Some v)) /\
    ct_abs_to_rel (translation v) [[0 + 0; 7 + 0]] = [[0 + 5; 7 + 0]].
Proof.
  split; [exact RNum_eq|]. split; [apply ex_flow_measures|].
  destruct (camera_translation RNum_ring RNum_eq (ex_vision never) ex_around 1 2 ex_displacement 0%Z None [(3%Z, None); (5%Z, None); (1%Z, None)] 0%Z
     2%nat 5%Z None 5%Z (ex_flow_measures _) eq_refl eq_refl eq_refl) as (v & E & S).
  exists v. split; [exact E|]. exact (proj1 (S [[0; 7]] ltac:(repeat constructor))).
Qed.
(** The points are lost in the second frame of a video, and found again in the third. *)
Lemma lost_case :
  homography_measures true (ex_vision lost1) (map (fun z => (z, None)) [0; 1; 2]%Z) ex_find ex_homography /\
  low_points (ex_vision lost1) (before_frame (ex_vision lost1) ex_find (9 / 10) (map (fun z => (z, None)) [0; 1; 2]%Z) 1) 1%Z None.
Proof.
  split; [apply ex_homography_measures; auto|].
  destruct (shift_new (IZR 0)) as [h0 E0].
  assert (S0 : estimator_update (ex_vision lost1) (hg_call ex_find) (estimator_new (ex_vision lost1) (@hg_new RNum (9 / 10))) 0%Z None
       = (@MkEst RNum (ex_vision lost1) _ (Some 0%Z) (Some ex_corners) None (@MkHG RNum (9 / 10) None) (@MkHG RNum (9 / 10) None), Ret (Some h0))).
  { pose proof (step_from (9 / 10) ltac:(lra) 0 0 None h0 eq_refl E0 None (@MkHG RNum (9 / 10) None)) as S. exact S. }
  unfold before_frame. cbn [map firstn after_frames]. rewrite S0. exists [], []. split; [reflexivity|]. cbn. lia.
Qed.

(** C93: the distance functions of norfair in other coordinates. *)
From Coq Require Import ZArith Reals Bool Arith List Lia Lra.
From Verif Require Import Model.Num Model.Base Model.Filter Model.Tracker Model.Distances Spec.PointSpec Spec.UnitSpec Proofs.UnitLists.
Import ListNotations.
Local Open Scope R_scope.

Lemma Rltb_scale c x y : 0 < c -> Rltb (c * x) (c * y) = Rltb x y.
Proof.
  intros H. unfold Rltb. destruct (Rlt_dec (c * x) (c * y)) as [A|A], (Rlt_dec x y) as [B|B]; auto; exfalso.
  - apply B. eapply Rmult_lt_reg_l; eauto.
  - apply A. apply Rmult_lt_compat_l; auto.
Qed.
Lemma Reqb_scale c x : c <> 0 -> Reqb (c * x) 0 = Reqb x 0.
Proof.
  intros H. unfold Reqb. destruct (Req_EM_T (c * x) 0) as [A|A], (Req_EM_T x 0) as [B|B]; auto; exfalso.
  - apply Rmult_integral in A. tauto.
  - apply A. subst. ring.
Qed.
Lemma scaled_unit c : 0 < c -> distance_unit (scaled c).
Proof.
  intros H. split.
  - intros [| |x|] [| |y|]; cbn; auto. apply Rltb_scale, H.
  - intros [| |x|]; reflexivity.
  - intros [| |x|]; cbn; auto. f_equal. apply Reqb_scale. lra.
  - reflexivity.
Qed.
Lemma same_unit {N : Num} : distance_unit (fun d : dval N => d).
Proof. split; auto. Qed.

Section D.
Context {FO : filter_ops RNum}.
Variable dim : nat.
Variable u : units RNum.
Notation F := (fun k x => u_scale u k * x + u_shift u k : R).
Notation V := (fun k x => u_scale u k * x : R).
Notation conv := (in_units u).

Lemma sub_row : forall (p q : list R) k, map2 Rminus (enum_map F k p) (enum_map F k q) = enum_map V k (map2 Rminus p q).
Proof. intros p q k. apply em_map2. intros j a b. ring. Qed.
Lemma shape_units : forall a b : points RNum, same_shape (conv a) (conv b) = same_shape a b.
Proof.
  intros a b. unfold same_shape, in_units. rewrite !map_length. f_equal. revert b. induction a as [|p a IH]; intros [|q b]; cbn; auto. rewrite !em_length, IH. reflexivity.
Qed.
Lemma sub_units (a b : points RNum) : array_sub (conv a) (conv b) = result_map (map (enum_map V 0)) (array_sub a b).
Proof.
  unfold array_sub. rewrite shape_units. destruct (same_shape a b); cbn; auto. f_equal. unfold in_units, map2 at 1 3. clear.
  revert b. induction a as [|p a IH]; intros [|q b]; cbn; auto. f_equal; [apply sub_row|apply IH].
Qed.
Section Zoom.
Variable c : R.
Hypothesis Hc : 0 < c.
Hypothesis Hu : forall k, Rabs (u_scale u k) = c.
Lemma sq k : u_scale u k * u_scale u k = c * c.
Proof. rewrite <- (Hu k). rewrite <- Rabs_mult. symmetry. apply Rabs_right, Rle_ge, Rle_0_sqr. Qed.
Lemma rsum_sq : forall (l : list R) k, rsum (map (fun x => x * x) (enum_map V k l)) = c * c * rsum (map (fun x => x * x) l).
Proof.
  induction l as [|x l IH]; intros k; cbn; [ring|]. unfold rsum in IH. rewrite IH. replace (u_scale u k * x * (u_scale u k * x)) with (u_scale u k * u_scale u k * (x * x)) by ring.
  rewrite sq. unfold rsum. ring.
Qed.
Lemma rsum_app l l' : rsum (l ++ l') = rsum l + rsum l'.
Proof. unfold rsum. induction l as [|x l IH]; cbn [app fold_right]; [ring|]. rewrite IH. ring. Qed.
Lemma sqrt_cc x : sqrt (c * c * x) = c * sqrt x.
Proof. rewrite sqrt_mult_alt by nra. rewrite sqrt_square by lra. reflexivity. Qed.
Lemma norm2_units l k : norm2 (enum_map V k l) = c * norm2 l.
Proof. unfold norm2. rewrite rsum_sq. apply sqrt_cc. Qed.
Lemma norm1_units : forall l k, norm1 (enum_map V k l) = c * norm1 l.
Proof.
  unfold norm1. induction l as [|x l IH]; intros k; cbn; [ring|]. unfold rsum in IH. rewrite IH, Rabs_mult, Hu. unfold rsum. ring.
Qed.
Lemma norm2_concat (m : list (list R)) : norm2 (concat (map (enum_map V 0) m)) = c * norm2 (concat m).
Proof.
  unfold norm2. rewrite <- sqrt_cc. f_equal. induction m as [|r m IH]; cbn; [ring|]. rewrite !map_app, !rsum_app, IH, rsum_sq. ring.
Qed.
Lemma mean_units (g : list R -> R) (m : list (list R)) : (forall l, g (enum_map V 0 l) = c * g l) -> mean (map g (map (enum_map V 0) m)) = scaled c (mean (map g m)).
Proof.
  intros H. rewrite map_map. assert (E : map (fun x => g (enum_map V 0 x)) m = map (Rmult c) (map g m)) by (rewrite map_map; apply map_ext, H). rewrite E.
  generalize (map g m). intros l. unfold mean. destruct l as [|x l]; [reflexivity|]. cbn [map scaled]. f_equal.
  change (c * x :: map (Rmult c) l) with (map (Rmult c) (x :: l)). rewrite map_length. generalize (INR (length (x :: l))). intros n. unfold Rdiv. rewrite <- Rmult_assoc. f_equal.
  generalize (x :: l). clear. intros l. induction l as [|y l IH]; cbn; [ring|]. unfold rsum in *. rewrite IH. ring.
Qed.
Lemma on_points_units dh dr k f f' : (forall a b, shaped dim a -> shaped dim b -> f' (conv a) (conv b) = result_map k (f a b)) ->
  scalar_in_units (FO := FO) dim u dh dr k (on_points f) (on_points f').
Proof.
  intros H [d|v] [d'|v'] o o'; cbn; try contradiction; auto. intros [-> (S1 & _)] Ho. cbn. rewrite (ou_estimate _ _ _ _ _ _ (vu_object _ _ _ _ _ _ Ho)).
  apply H; auto. apply (ou_shaped _ _ _ _ _ _ (vu_object _ _ _ _ _ _ Ho)).
Qed.
Lemma frobenius_units dh dr : scalar_in_units (FO := FO) dim u dh dr (scaled c) frobenius frobenius.
Proof.
  apply on_points_units. intros a b _ _. unfold frobenius_arrays. rewrite sub_units. destruct (array_sub a b); cbn; auto. rewrite norm2_concat. reflexivity.
Qed.
Lemma mean_euclidean_units dh dr : scalar_in_units (FO := FO) dim u dh dr (scaled c) mean_euclidean mean_euclidean.
Proof.
  apply on_points_units. intros a b _ _. unfold mean_euclidean_arrays. rewrite sub_units. destruct (array_sub a b); cbn [result_map]; auto. rewrite mean_units; auto. intros l. apply norm2_units.
Qed.
Lemma mean_manhattan_units dh dr : scalar_in_units (FO := FO) dim u dh dr (scaled c) mean_manhattan mean_manhattan.
Proof.
  apply on_points_units. intros a b _ _. unfold mean_manhattan_arrays. rewrite sub_units. destruct (array_sub a b); cbn [result_map]; auto. rewrite mean_units; auto. intros l. apply norm1_units.
Qed.
Lemma voting_units dh dr t s : scalar_in_units (FO := FO) dim u dh dr (fun d => d) (keypoints_voting_distance t s) (keypoints_voting_distance (c * t) s).
Proof.
  intros [d|v] [d'|v'] o o'; cbn; try contradiction; auto. intros [-> (S1 & _)] Ho. cbn. rewrite (ou_estimate _ _ _ _ _ _ (vu_object _ _ _ _ _ _ Ho)), (vu_last _ _ _ _ _ _ Ho).
  cbn. unfold keypoints_voting_arrays. rewrite sub_units. destruct (array_sub _ _) as [m|e]; cbn [result_map]; auto.
  assert (E : map (fun row => Rltb (norm2 row) (c * t)) (map (enum_map V 0) m) = map (fun row => Rltb (norm2 row) t) m).
  { rewrite map_map. apply map_ext. intros row. rewrite norm2_units. apply Rltb_scale, Hc. }
  rewrite E. destruct (d_scores d); cbn; auto. destruct (Nat.eqb _ _); auto. destruct (d_scores (v_last o)); auto. destruct (Nat.eqb _ _); auto.
Qed.
End Zoom.

(** Distances that are relative to the size of the image. *)
Lemma square_units (s x w : R) : s <> 0 -> dsquare (@fdiv RNum (s * x) (Rabs s * w)) = dsquare (@fdiv RNum x w).
Proof.
  intros H. assert (Ha : Rabs s <> 0) by (apply Rabs_no_R0, H). unfold fdiv. cbn [neqb RNum n0]. rewrite (Reqb_scale _ w Ha), (Reqb_scale _ x H).
  destruct (Reqb w 0) eqn:Ew.
  - destruct (Reqb x 0); auto. destruct (nltb _ _), (nltb _ _); reflexivity.
  - unfold dsquare. f_equal. cbn. unfold Reqb in Ew. destruct (Req_EM_T w 0) as [|Hw]; [discriminate|].
    assert (E : Rabs s * Rabs s = s * s) by (rewrite <- Rabs_mult; apply Rabs_right, Rle_ge, Rle_0_sqr).
    transitivity ((s * s) * (x * x) / ((Rabs s * Rabs s) * (w * w))); [field; auto|]. rewrite E. field. auto.
Qed.
Lemma normalized_units dh dr h w : dim = 2%nat -> u_scale u 0 <> 0 -> u_scale u 1 <> 0 ->
  scalar_in_units (FO := FO) dim u dh dr (fun d => d) (normalized_mean_euclidean_distance h w)
    (normalized_mean_euclidean_distance (Rabs (u_scale u 1) * h) (Rabs (u_scale u 0) * w)).
Proof.
  intros Hd H0 H1. apply on_points_units. intros a b [_ Sa] [_ Sb]. unfold normalized_mean_euclidean_arrays. rewrite sub_units.
  assert (Sm : forall m, array_sub a b = Ret m -> Forall (fun row : list R => length row = 2%nat) m).
  { intros m E. unfold array_sub in E. destruct (same_shape a b); [|discriminate]. injection E as <-. rewrite Hd in *. clear - Sa Sb. revert b Sb. induction Sa as [|p a Hp _ IH]; intros b Sb; cbn; [constructor|].
    destruct Sb as [|q b Hq Sb]; cbn; constructor; [unfold map2; rewrite map_length, combine_length; cbn in *; lia|apply IH, Sb]. }
  destruct (array_sub a b) as [m|e]; cbn [result_map]; auto. specialize (Sm m eq_refl).
  assert (E : exists r r', map_result (normalize_row w h) m = Ret r /\ map_result (normalize_row (Rabs (u_scale u 0) * w) (Rabs (u_scale u 1) * h)) (map (enum_map V 0) m) = Ret r' /\
    map (fun row => dsqrt (dsum (map dsquare row))) r' = map (fun row => dsqrt (dsum (map dsquare row))) r).
  { induction Sm as [|row m Hr _ (r & r' & E1 & E2 & E3)]; [exists [], []; auto|]. destruct row as [|x [|y [|]]]; try discriminate. cbn [map map_result enum_map normalize_row].
    rewrite E1, E2. eexists; eexists; split; [reflexivity|]. split; [reflexivity|]. cbn [map]. f_equal; [|exact E3]. rewrite !square_units by auto. reflexivity. }
  destruct E as (r & r' & -> & -> & E). rewrite E. reflexivity.
Qed.

(** Boxes. *)
Lemma nmax_units s t (x y : R) : 0 < s -> @nmax RNum (s * x + t) (s * y + t) = s * @nmax RNum x y + t.
Proof.
  intros H. unfold nmax. cbn [nltb RNum]. assert (E : Rltb (s * x + t) (s * y + t) = Rltb x y).
  { rewrite <- (Rltb_scale s x y H). unfold Rltb. destruct (Rlt_dec (s * x + t) (s * y + t)), (Rlt_dec (s * x) (s * y)); auto; exfalso; lra. }
  rewrite E. destruct (Rltb x y); reflexivity.
Qed.
Lemma nmin_units s t (x y : R) : 0 < s -> @nmin RNum (s * x + t) (s * y + t) = s * @nmin RNum x y + t.
Proof.
  intros H. unfold nmin. cbn [nltb RNum]. assert (E : Rltb (s * y + t) (s * x + t) = Rltb y x).
  { rewrite <- (Rltb_scale s y x H). unfold Rltb. destruct (Rlt_dec (s * y + t) (s * x + t)), (Rlt_dec (s * y) (s * x)); auto; exfalso; lra. }
  rewrite E. destruct (Rltb y x); reflexivity.
Qed.
Lemma iou_entry_units (p q : points RNum) : dim = 2%nat -> 0 < u_scale u 0 -> 0 < u_scale u 1 -> shaped dim p -> shaped dim q ->
  length (flatten p) = 4%nat -> length (flatten q) = 4%nat -> @iou_entry RNum (flatten (conv p)) (flatten (conv q)) = iou_entry (flatten p) (flatten q).
Proof.
  intros Hd H0 H1 [_ Sp] [_ Sq] Lp Lq. rewrite Hd in *.
  assert (G : forall p : points RNum, Forall (fun row => length row = 2%nat) p -> length (flatten p) = 4%nat -> exists a b c d, p = [[a; b]; [c; d]]).
  { clear. intros p S L. destruct S as [|r1 p H1 S]; [discriminate|]. destruct r1 as [|a [|b [|]]]; try discriminate. destruct S as [|r2 p H2 S]; [discriminate|].
    destruct r2 as [|c [|d [|]]]; try discriminate. destruct S as [|r3 p H3 S]; [eauto|]. destruct r3 as [|e [|f [|]]]; try discriminate. }
  destruct (G p Sp Lp) as (a & b & c & d & ->). destruct (G q Sq Lq) as (a' & b' & c' & d' & ->). cbn [in_units map enum_map flatten concat app].
  unfold iou_entry, box_area. cbn [nth]. cbn [nadd nmul RNum].
  set (s0 := u_scale u 0) in *. set (s1 := u_scale u 1) in *. set (t0 := u_shift u 0). set (t1 := u_shift u 1).
  rewrite !nmax_units, !nmin_units by auto.
  set (L := @nmax RNum a a'). set (T := @nmax RNum b b'). set (Ri := @nmin RNum c c'). set (B := @nmin RNum d d').
  assert (M : forall s x, 0 < s -> @nmax RNum (s * x) 0 = s * @nmax RNum x 0).
  { intros s x Hs. pose proof (nmax_units s 0 x 0 Hs) as E. rewrite !Rplus_0_r, Rmult_0_r in E. exact E. }
  cbn [nsub n0 RNum]. replace (s0 * Ri + t0 - (s0 * L + t0)) with (s0 * (Ri - L)) by ring. replace (s1 * B + t1 - (s1 * T + t1)) with (s1 * (B - T)) by ring.
  rewrite !M by auto. set (w := @nmax RNum (Ri - L) 0). set (h := @nmax RNum (B - T) 0).
  replace (s0 * w * (s1 * h)) with ((s0 * s1) * (w * h)) by ring.
  replace ((s0 * c + t0 - (s0 * a + t0)) * (s1 * d + t1 - (s1 * b + t1)) + (s0 * c' + t0 - (s0 * a' + t0)) * (s1 * d' + t1 - (s1 * b' + t1)) - s0 * s1 * (w * h))
    with ((s0 * s1) * ((c - a) * (d - b) + (c' - a') * (d' - b') - w * h)) by ring.
  set (U := (c - a) * (d - b) + (c' - a') * (d' - b') - w * h). set (Ix := w * h). assert (S : 0 < s0 * s1) by (apply Rmult_lt_0_compat; auto). set (s := s0 * s1) in *.
  unfold fdiv. cbn [neqb nltb ndiv RNum n0]. rewrite !Reqb_scale by lra. pose proof (Rltb_scale s Ix 0 S) as E. rewrite Rmult_0_r in E. rewrite E.
  destruct (Reqb U 0) eqn:EU; auto. unfold one_minus. f_equal. cbn. f_equal. unfold Reqb in EU. destruct (Req_EM_T U 0); [discriminate|]. field. split; auto. lra.
Qed.
Lemma iou_units : (0 < dim)%nat -> dim = 2%nat -> 0 < u_scale u 0 -> 0 < u_scale u 1 -> vector_in_units (N := RNum) dim u (fun d => d) iou iou.
Proof.
  intros Hp Hd H0 H1 ps qs Fp Fq. unfold iou.
  assert (Len : forall p, shaped dim p -> length (flatten (conv p)) = length (flatten p)).
  { intros p [_ Sp]. unfold flatten, in_units. clear - Sp. induction Sp as [|r p Hr _ IH]; cbn [map concat]; auto. rewrite !app_length, em_length. f_equal. exact IH. }
  assert (B : forall (t : nat -> bool) l, Forall (shaped dim) l -> forallb (fun c : list RNum => t (length c)) (map (fun p => flatten (conv p)) l) = forallb (fun c : list RNum => t (length c)) (map flatten l)).
  { intros t l Fl. induction Fl as [|p l Sp _ IH]; cbn [map forallb]; auto. rewrite IH. f_equal. exact (f_equal t (Len p Sp)). }
  rewrite (B (fun n => Nat.eqb n 4) ps Fp), (B (fun n => Nat.leb 4 n) qs Fq), (B (fun n => Nat.eqb n 4) qs Fq).
  destruct (forallb (fun c => Nat.eqb (length c) 4) (map flatten ps)) eqn:E1; [|reflexivity]. destruct (forallb (fun o => Nat.leb 4 (length o)) (map flatten qs)); [|reflexivity].
  destruct (forallb (fun c => Nat.eqb (length c) 4) (map flatten qs)) eqn:E3; [|reflexivity]. cbn [result_map]. f_equal.
  rewrite forallb_forall in E1, E3. rewrite Forall_forall in Fp, Fq. rewrite !map_map. apply map_ext_in. intros p Ip. rewrite map_id, !map_map. apply map_ext_in. intros q Iq.
  apply iou_entry_units; auto; apply Nat.eqb_eq; [apply E1|apply E3]; apply in_map; auto.
Qed.
End D.

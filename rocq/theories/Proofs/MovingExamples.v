(** The built-in distances depend only on differences of positions; a concrete moving camera. *)
From Coq Require Import ZArith QArith Qcanon Reals Lra Bool Arith String.
From Coq Require Import List Lia.
From Verif Require Import Model.Num Model.Base Model.Filter Model.Tracker Model.CameraMotion Model.Distances Proofs.RingNums Proofs.MovingProofs
  Spec.PointSpec Spec.CallSpec Spec.MovingSpec Spec.ExampleVideo Spec.ExampleTracker Spec.IsolationSpec.
Import ListNotations.
Local Open Scope nat_scope.

Section B.
Context {FO : filter_ops RNum}.
Lemma moved_len (v : list RNum) (p : points RNum) : fits v p -> map (@length R) (moved v p) = map (@length R) p.
Proof.
  intros Hf. apply fits_rows in Hf. unfold moved. rewrite map_map. apply map_ext_in. intros row Hr. rewrite Forall_forall in Hf.
  exact (map2_length _ row v (Hf row Hr)).
Qed.
Lemma same_shape_len (a b a' b' : points RNum) : map (@length R) a = map (@length R) a' -> map (@length R) b = map (@length R) b' ->
  same_shape a b = same_shape a' b'.
Proof.
  intros Ea Eb. unfold same_shape.
  assert (La : length a = length a') by (apply (f_equal (@length nat)) in Ea; rewrite !map_length in Ea; exact Ea).
  assert (Lb : length b = length b') by (apply (f_equal (@length nat)) in Eb; rewrite !map_length in Eb; exact Eb).
  rewrite La, Lb. f_equal. clear La Lb. revert a' b b' Ea Eb. induction a as [|x a IH]; intros [|x' a'] b b' Ea Eb; try discriminate; auto.
  destruct b as [|y b], b' as [|y' b']; try discriminate; auto. cbn [map combine forallb fst snd] in *. injection Ea as E1 E2. injection Eb as E3 E4.
  f_equal; [|apply IH; auto]. exact (f_equal2 Nat.eqb E1 E3).
Qed.
Lemma row_diff (v : list R) : forall a b : list R, length a <= length v -> length b <= length v -> length a = length b ->
  map2 Rminus (map2 Rplus a v) (map2 Rplus b v) = map2 Rminus a b.
Proof.
  unfold map2. induction v as [|z v IH]; intros [|x a] [|y b] Ha Hb E; cbn in *; auto; try lia. f_equal; [lra|apply IH; lia].
Qed.
Lemma array_diff (v : list RNum) (a b : points RNum) : fits v a -> fits v b -> array_sub (moved v a) (moved v b) = array_sub a b.
Proof.
  intros Ha Hb. unfold array_sub. rewrite (same_shape_len _ _ a b (moved_len v a Ha) (moved_len v b Hb)).
  destruct (same_shape a b) eqn:E; [|reflexivity]. f_equal. apply fits_rows in Ha, Hb. unfold same_shape in E. apply andb_true_iff in E as [E1 E].
  apply Nat.eqb_eq in E1. revert b Hb E1 E. induction Ha as [|x a Hx Ha IH]; intros b Hb E1 E; [destruct b; reflexivity|].
  destruct Hb as [|y b Hy Hb]; [reflexivity|]. cbn [combine forallb fst snd] in E. apply andb_true_iff in E as [E2 E]. apply Nat.eqb_eq in E2.
  unfold map2 at 1 3. cbn [moved map combine]. f_equal; [exact (row_diff v x y Hx Hy E2)|]. apply (IH b Hb); auto.
Qed.
Lemma on_points_blind dim f : (forall (v : list RNum) (a b : points RNum), @length R v = dim -> fits v a -> fits v b -> f (moved v a) (moved v b) = f a b) ->
  scalar_blind dim (on_points (FO:=FO) f).
Proof.
  intros Hf v c1 c2 o1 o2 Hv Hc Ho. destruct c1 as [d1|], c2 as [d2|]; cbn in *; try contradiction; auto.
  destruct Hc as (_ & -> & F1). rewrite (os_estimate _ _ _ Ho). apply Hf; auto. apply (os_fits _ _ _ Ho).
Qed.
Lemma frobenius_blind dim : scalar_blind dim (frobenius (FO:=FO)).
Proof. apply on_points_blind. intros v a b _ Ha Hb. unfold frobenius_arrays. rewrite array_diff; auto. Qed.
Lemma mean_euclidean_blind dim : scalar_blind dim (mean_euclidean (FO:=FO)).
Proof. apply on_points_blind. intros v a b _ Ha Hb. unfold mean_euclidean_arrays. rewrite array_diff; auto. Qed.
Lemma mean_manhattan_blind dim : scalar_blind dim (mean_manhattan (FO:=FO)).
Proof. apply on_points_blind. intros v a b _ Ha Hb. unfold mean_manhattan_arrays. rewrite array_diff; auto. Qed.
Lemma normalized_blind dim h w : scalar_blind dim (normalized_mean_euclidean_distance (FO:=FO) h w).
Proof. apply on_points_blind. intros v a b _ Ha Hb. unfold normalized_mean_euclidean_arrays. rewrite array_diff; auto. Qed.
Lemma keypoints_blind dim t1 t2 : scalar_blind dim (keypoints_voting_distance (FO:=FO) t1 t2).
Proof.
  intros v c1 c2 o1 o2 Hv Hc Ho. destruct c1 as [d1|], c2 as [d2|]; cbn in *; try contradiction; auto.
  destruct Hc as (Hs & -> & F1). rewrite (os_estimate _ _ _ Ho), (sd_scores _ _ Hs), (sd_scores _ _ (os_last _ _ _ Ho)).
  unfold keypoints_voting_arrays. rewrite array_diff; auto. apply (os_fits _ _ _ Ho).
Qed.
End B.

(** [iou] on boxes [[x_min, y_min], [x_max, y_max]]. *)
Lemma fits_box (v : list RNum) (p : points RNum) : @length R v = 2 -> fits v p -> @length R (flatten p) = 4 ->
  exists a b x y, p = [[a; b]; [x; y]].
Proof.
  intros Hv Hf Hl. unfold fits in Hf. change (@length (num RNum) v) with (@length R v) in Hf. rewrite Hv in Hf.
  change (@flatten RNum p) with (@concat R p) in *.
  destruct (@concat R p) as [|a [|b [|x [|y [|z l]]]]]; try discriminate. exists a, b, x, y. rewrite Hf. reflexivity.
Qed.
Lemma Rltb_shift (x y z : R) : Rltb (x + z) (y + z) = Rltb x y.
Proof. unfold Rltb. destruct (Rlt_dec (x + z) (y + z)), (Rlt_dec x y); auto; exfalso; lra. Qed.
Lemma iou_moved (a b x y a' b' x' y' v1 v2 : R) :
  @iou_entry RNum [a + v1; b + v2; x + v1; y + v2]%R [a' + v1; b' + v2; x' + v1; y' + v2]%R = @iou_entry RNum [a; b; x; y] [a'; b'; x'; y'].
Proof.
  assert (Mx : forall p q z : R, @nmax RNum (p + z)%R (q + z)%R = (@nmax RNum p q + z)%R).
  { intros p q z. unfold nmax. change (@nltb RNum) with Rltb. rewrite Rltb_shift. destruct (Rltb _ _); reflexivity. }
  assert (Mn : forall p q z : R, @nmin RNum (p + z)%R (q + z)%R = (@nmin RNum p q + z)%R).
  { intros p q z. unfold nmin. change (@nltb RNum) with Rltb. rewrite Rltb_shift. destruct (Rltb _ _); reflexivity. }
  unfold iou_entry, box_area. cbn [nth]. rewrite !Mx, !Mn. f_equal.
  assert (Sub : forall p q z : R, @nsub RNum (p + z)%R (q + z)%R = @nsub RNum p q) by (intros p q z; cbn; lra).
  rewrite !Sub. reflexivity.
Qed.
Lemma iou_blind : vector_blind 2 (@iou RNum).
Proof.
  intros v ps qs Hv Hp Hq. unfold iou.
  assert (El : forall k l, Forall (fits v) l -> forallb (fun c : list RNum => k (@length R c)) (map (fun p => flatten (moved v p)) l)
    = forallb (fun c : list RNum => k (@length R c)) (map flatten l)).
  { intros k l Hl. induction Hl as [|p l Hpl Hl IH]; cbn [map forallb]; auto. f_equal; auto. f_equal. exact (flatten_moved v p Hpl). }
  pose proof (El (fun n => Nat.eqb n 4) ps Hp) as E1. pose proof (El (fun n => Nat.leb 4 n) qs Hq) as E2. pose proof (El (fun n => Nat.eqb n 4) qs Hq) as E3.
  cbn beta in E1, E2, E3. change (num RNum) with R in *. rewrite E1, E2, E3.
  match goal with |- (if ?b then _ else _) = _ => destruct b eqn:F1 end; [|reflexivity]. match goal with |- (if ?b then _ else _) = _ => destruct b eqn:F2 end; [|reflexivity]. match goal with |- (if ?b then _ else _) = _ => destruct b eqn:F3 end; [|reflexivity]. f_equal. rewrite !map_map. apply map_ext_in. intros p Hp'. rewrite !map_map. apply map_ext_in. intros q Hq'.
  rewrite forallb_forall in F1, F3. rewrite Forall_forall in Hp, Hq.
  assert (Lp : @length R (flatten p) = 4) by (apply Nat.eqb_eq, F1, in_map, Hp').
  assert (Lq : @length R (flatten q) = 4) by (apply Nat.eqb_eq, F3, in_map, Hq').
  destruct (fits_box v p Hv (Hp p Hp') Lp) as (a & b & x & y & ->). destruct (fits_box v q Hv (Hq q Hq') Lq) as (a' & b' & x' & y' & ->).
  destruct v as [|v1 [|v2 [|]]]; try discriminate. exact (iou_moved a b x y a' b' x' y' v1 v2).
Qed.

(** A camera moving over two objects; points with two coordinates, Manhattan distance of the first point. *)
Definition mvF : filter_ops QcNum := nofilter_ops QcNum.
Definition mv_abs (x : QcNum) : QcNum := if nltb x n0 then nsub n0 x else x.
Definition mv_arrays (a b : points QcNum) : result (dval QcNum) :=
  match a, b with
  | [x; y] :: _, [x'; y'] :: _ => Ret (DFin (nadd (mv_abs (nsub x x')) (mv_abs (nsub y y'))))
  | _, _ => Ret DPInf
  end.
Definition mv_distance (c : cview mvF) (o : oview mvF) : result (dval QcNum) :=
  match c with VDet d => mv_arrays (d_points d) (estimate (v_obj o)) | VObj o' => mv_arrays (estimate (v_obj o')) (estimate (v_obj o)) end.
Lemma mv_arrays_blind (v : list QcNum) (a b : points QcNum) : length v = 2 -> fits v a -> fits v b -> mv_arrays (moved v a) (moved v b) = mv_arrays a b.
Proof.
  intros Hv Ha Hb. apply fits_rows in Ha, Hb. destruct v as [|v1 [|v2 [|]]]; try discriminate.
  destruct a as [|[|x [|y [|]]] a], b as [|[|x' [|y' [|]]] b]; try reflexivity;
    try (inversion Ha as [|? ? Hx _]; cbn in Hx; lia); try (inversion Hb as [|? ? Hx _]; cbn in Hx; lia).
  assert (E : forall x y z : QcNum, nsub (nadd x z) (nadd y z) = nsub x y) by (intros p q z; cbn; ring).
  unfold mv_arrays, moved, map2. cbn [map combine]. rewrite !E. reflexivity.
Qed.
Lemma mv_blind : scalar_blind 2 mv_distance.
Proof.
  intros v c1 c2 o1 o2 Hv Hc Ho. destruct c1 as [d1|x1], c2 as [d2|x2]; cbn in *; try contradiction.
  - destruct Hc as (_ & -> & Hf). rewrite (os_estimate _ _ _ Ho). apply mv_arrays_blind; auto. apply (os_fits _ _ _ Ho).
  - rewrite (os_estimate _ _ _ Ho), (os_estimate _ _ _ Hc). apply mv_arrays_blind; auto; [apply (os_fits _ _ _ Hc)|apply (os_fits _ _ _ Ho)].
Qed.
Definition mv_conf : tconf mvF :=
  MkTconf (ScalarDistance mv_distance) (DFin (Q2Qc 5 : QcNum)) 3 1 3 (Q2Qc 0 : QcNum) 2 (Some mv_distance) (DFin (Q2Qc 50 : QcNum)) (Some 4%Z) (fun x => x).
Lemma mv_conf_blind : blind_to_position 2 mv_conf.
Proof. split; [exact mv_blind|]. intros f E. injection E as <-. exact mv_blind. Qed.
Definition mv_det (x y : Z) : detection QcNum := new_detection [[Q2Qc (inject_Z x) : QcNum; Q2Qc (inject_Z y) : QcNum]] None [] LNone.
Definition mv_at (x y : Z) : list QcNum := [Q2Qc (inject_Z x) : QcNum; Q2Qc (inject_Z y) : QcNum].
Definition mv_shots : list (shot (N:=QcNum)) :=
  [MkShot [(1, mv_det 0%Z 0%Z); (2, mv_det 100%Z 100%Z)] 1%Z (mv_at 0%Z 0%Z);
   MkShot [(3, mv_det 1%Z 1%Z); (4, mv_det 101%Z 99%Z)] 1%Z (mv_at 40%Z (-20)%Z);
   MkShot [(5, mv_det 1%Z 2%Z)] 1%Z (mv_at 80%Z (-40)%Z)].
Definition mv_dummy : tobj mvF :=
  MkObj (FO:=mvF) (MkOconf (N:=QcNum) 0 0 0 0%Z 0%Z 0%Z (n0 : QcNum) 0%Z None 0 LNone) 0%Z None None None 0 0%Z true None None [] [] []
    (MkNoFilter (N:=QcNum) 0 []) None.
Definition mv_start : st mvF := MkSt (fun _ => mv_det 0%Z 0%Z) 0 (fun _ => mv_dummy) [] 0 0.
Lemma mv_good : Forall (good_shot 2) mv_shots.
Proof.
  repeat constructor; cbn; try (intros H; repeat destruct H as [H|H]; try discriminate; auto).
Qed.
Lemma mv_results : map snd (recording (moving_call mv_conf) mv_start mv_shots) = [Ret []; Ret [1; 2]; Ret [1; 2]].
Proof. vm_compute. reflexivity. Qed.
Lemma mv_estimate : match nth_error (recording (moving_call mv_conf) mv_start mv_shots) 2 with
  | Some a => (map (map this) (estimate (s_store (fst a) 1)), map (map this) (match get_estimate (s_store (fst a) 1) true with Ret p => p | Raise _ => [] end))
  | None => ([], []) end = ([[81; (-38)]], [[1; 2]])%Q.
Proof. vm_compute. reflexivity. Qed.

(** ** Two trackers *)
Definition ex_owner (r : nat) : nat := if (Nat.leb 5 r && Nat.leb r 6)%bool then 1 else 0.
Lemma ex_blind_gid : blind_to_gid ex_conf.
Proof. split; [|discriminate]. intros f E. injection E as <-. intros [d|o'] o; reflexivity. Qed.
Lemma ex_owned : Forall (to_owner ex_owner) ex_ops.
Proof. repeat constructor. Qed.
Lemma ex_results : results (fun _ => ex_conf) 1 ex_init ex_ops = [Ret []; Ret [1]] /\
  results (fun _ => ex_conf) 0 ex_init ex_ops = [Ret []; Ret [1; 2]; Ret [1; 2]].
Proof. split; vm_compute; reflexivity. Qed.
Lemma ex_gids : o_gid (p_store (w_trackers (run (fun _ => ex_conf) ex_init ex_ops) 1) 1) = Some 3 /\
  o_gid (p_store (w_trackers (run (fun _ => ex_conf) ex_init (filter (concerns ex_owner 1) ex_ops)) 1) 1) = Some 1.
Proof. split; vm_compute; reflexivity. Qed.
Lemma global_id_depends : exists (N : Num) (FO : filter_ops N) (conf : nat -> tconf FO) owner h dummy k (ops : list (op N)) i,
  blind_to_gid (conf k) /\ Forall (to_owner owner) ops /\
  let w := run conf (init_world h dummy) ops in
  let alone := run conf (init_world h dummy) (filter (concerns owner k) ops) in
  In i (p_tracked (w_trackers w k)) /\ o_gid (p_store (w_trackers w k) i) <> o_gid (p_store (w_trackers alone k) i).
Proof.
  exists QNum, exF, (fun _ => ex_conf), ex_owner, (fun _ => ex_det 0), ex_dummy, 1, ex_ops, 1.
  split; [exact ex_blind_gid|]. split; [exact ex_owned|]. cbv zeta. fold ex_init. destruct ex_gids as [-> ->]. split; [|discriminate].
  assert (E : p_tracked (w_trackers (run (fun _ => ex_conf) ex_init ex_ops) 1) = [1]) by (vm_compute; reflexivity). rewrite E. left. reflexivity.
Qed.
Lemma builtin_blind (FO : filter_ops RNum) dim h w t1 t2 :
  scalar_blind dim (frobenius (FO:=FO)) /\ scalar_blind dim (mean_euclidean (FO:=FO)) /\
  scalar_blind dim (mean_manhattan (FO:=FO)) /\ scalar_blind dim (normalized_mean_euclidean_distance (FO:=FO) h w) /\
  scalar_blind dim (keypoints_voting_distance (FO:=FO) t1 t2) /\ vector_blind 2 (@iou RNum).
Proof.
  split; [apply frobenius_blind|]. split; [apply mean_euclidean_blind|]. split; [apply mean_manhattan_blind|].
  split; [apply normalized_blind|]. split; [apply keypoints_blind|apply iou_blind].
Qed.

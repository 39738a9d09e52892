(** C111: distance functions of norfair that do not depend on the order of coordinates, and what follows for whole
    videos. *)
From Coq Require Import ZArith Reals Bool Arith List Lia Lra Permutation.
From Verif Require Import Model.Num Model.Base Model.Filter Model.Tracker Model.Distances Model.CameraMotion Spec.CallSpec Spec.ExampleVideo Spec.LabelSpec
  Spec.PointSpec Spec.UnitSpec Spec.CoordSpec Proofs.UnitLists Proofs.UnitFilters Proofs.CoordLists Proofs.CoordSim Proofs.CoordRun Proofs.CoordFilters.
Import ListNotations.

Section T.
Context {N : Num}.
Variables dim n : nat.
Hypothesis Hdim : 0 < dim.
Variables sigma tau : list nat.
Hypothesis Hs : Permutation sigma (seq 0 n).
Hypothesis Ht : Permutation tau (seq 0 dim).
Lemma translation_order (v : list N) : length v = dim ->
  ct_in_order dim n (pa_order dim sigma tau) (Some (translation v)) (Some (translation (picks n0 tau v))).
Proof.
  intros L p [Sp Fp].
  assert (G : forall op : N -> N -> N, sized dim n (map (fun row => map2 op row v) p) /\
    map (fun row => map2 op row (picks n0 tau v)) (in_order dim (pa_order dim sigma tau) p) = in_order dim (pa_order dim sigma tau) (map (fun row => map2 op row v) p)).
  { intros op. assert (S : sized dim n (map (fun row => map2 op row v) p)).
    { split; [rewrite map_length; exact Sp|]. apply Forall_map. eapply Forall_impl; [|exact Fp]. intros r Hr. cbn in *. rewrite map2_len. lia. }
    split; [exact S|]. rewrite !(pa_in_order dim n Hdim) by (auto; split; auto). unfold points_and_axes.
    assert (E : map (picks n0 tau) (map (fun row => map2 op row v) p) = map (fun row => map2 op row (picks n0 tau v)) (map (picks n0 tau) p)).
    { rewrite !map_map. apply map_ext_in. intros r Hr. rewrite Forall_forall in Fp. symmetry. apply (picks_map2 dim tau Ht); auto. }
    rewrite E. symmetry. apply (picks_map n sigma Hs). rewrite map_length. exact Sp. }
  destruct (G nsub) as [A1 A2]. destruct (G nadd) as [B1 B2]. cbn [translation ct_rel_to_abs ct_abs_to_rel]. auto.
Qed.
End T.

Local Open Scope R_scope.
Lemma rsum_perm l l' : Permutation l l' -> rsum l = rsum l'.
Proof. unfold rsum. induction 1; cbn; lra. Qed.
Lemma rsum_app' l l' : rsum (l ++ l') = rsum l + rsum l'.
Proof. unfold rsum. induction l as [|x l IH]; cbn [app fold_right]; [ring|]. rewrite IH. ring. Qed.
Lemma norm2_perm l l' : Permutation l l' -> norm2 l = norm2 l'.
Proof. intros H. unfold norm2. f_equal. apply rsum_perm, Permutation_map, H. Qed.
Lemma norm1_perm l l' : Permutation l l' -> norm1 l = norm1 l'.
Proof. intros H. apply rsum_perm, Permutation_map, H. Qed.
Lemma norm1_rows (m : list (list R)) : rsum (map norm1 m) = norm1 (concat m).
Proof. unfold norm1. induction m as [|r m IH]; cbn; auto. rewrite map_app, rsum_app'. unfold rsum in *. rewrite IH. reflexivity. Qed.
Lemma mean_perm l l' : Permutation l l' -> mean l = mean l'.
Proof.
  intros H. pose proof (rsum_perm _ _ H) as E. pose proof (Permutation_length H) as L. unfold mean. destruct l, l'; try discriminate; auto.
  rewrite E, L. reflexivity.
Qed.

Section D.
Context {FO : filter_ops RNum}.
Variables dim n : nat.
Hypothesis Hdim : (0 < dim)%nat.
Hypothesis Hn : (0 < n)%nat.
Variable order : list nat.
Hypothesis Ho : is_order dim n order.
Notation conv := (in_order (N := RNum) dim order).

Lemma sub_sized (a b : points RNum) : sized dim n a -> sized dim n b -> exists m, array_sub a b = Ret m /\ sized dim n m /\ flatten m = map2 Rminus (flatten a) (flatten b).
Proof.
  intros [La Fa] [Lb Fb]. unfold array_sub.
  assert (E : same_shape a b = true /\ Forall (fun row => length row = dim) (map2 (map2 Rminus) a b) /\ length (map2 (map2 Rminus) a b) = length a /\
              flatten (map2 (map2 Rminus) a b : points RNum) = map2 Rminus (flatten a) (flatten b)).
  { unfold same_shape. replace (Nat.eqb (length a) (length b)) with true by (symmetry; apply Nat.eqb_eq; lia). cbn [andb]. assert (L : length b = length a) by lia. clear -Fa Fb L. revert b Fb L.
    induction Fa as [|r a Hr _ IH]; intros [|q b] Fb L; try discriminate; [split; [reflexivity|]; split; [apply Forall_nil|]; split; reflexivity|]. pose proof (Forall_inv Fb) as Hq. pose proof (Forall_inv_tail Fb) as Fb'. cbn beta in Hq.
    destruct (IH b Fb' (eq_add_S _ _ L)) as (E1 & E2 & E3 & E4). cbn [combine forallb fst snd]. assert (Hrq : length q = length r) by (transitivity dim; auto).
    split; [apply andb_true_iff; split; [apply Nat.eqb_eq; auto|exact E1]|].
    split; [apply (Forall_cons (map2 Rminus r q)); [|exact E2]; rewrite map2_len; transitivity (Nat.min (length r) (length r)); [f_equal; exact Hrq|rewrite Nat.min_id; exact Hr]|]. split; [unfold map2 in *; cbn; rewrite E3; reflexivity|].
    unfold flatten in *. unfold map2 at 1. cbn [combine map concat fst snd]. unfold map2 at 1 in E4. rewrite E4. unfold map2. rewrite <- map_app. f_equal.
    clear -Hrq. revert q Hrq. induction r as [|x r IH]; intros [|y q] Hq; try discriminate; cbn; auto. f_equal. apply IH. exact (eq_add_S _ _ Hq). }
  destruct E as (E1 & E2 & E3 & E4). rewrite E1. exists (map2 (map2 Rminus) a b). split; [reflexivity|]. split; [split; [exact (eq_trans E3 La)|exact E2]|exact E4].
Qed.
Lemma sub_order (a b : points RNum) : sized dim n a -> sized dim n b -> exists m, array_sub a b = Ret m /\ sized dim n m /\ array_sub (conv a) (conv b) = Ret (conv m).
Proof.
  intros Sa Sb. destruct (sub_sized a b Sa Sb) as (m & E1 & E2 & E3). exists m. split; [exact E1|]. split; [exact E2|].
  destruct (sub_sized (conv a) (conv b) (conv_shaped dim n Hdim order Ho a) (conv_shaped dim n Hdim order Ho b)) as (m' & E1' & E2' & E3').
  rewrite E1'. f_equal. rewrite <- (reshape_flatten dim Hdim m') by apply E2'. unfold in_order. f_equal. rewrite E3'.
  rewrite !(flat_conv dim n Hdim order Ho). etransitivity; [exact (picks_map2 (dim * n) order Ho Rminus _ _ (@n0 RNum) _ _ (sized_flat (N := RNum) dim n Hdim a Sa) (sized_flat (N := RNum) dim n Hdim b Sb))|].
  exact (f_equal (picks (@n0 RNum) order) (eq_sym E3)).
Qed.
Lemma on_points_order f : (forall a b, sized dim n a -> sized dim n b -> f (conv a) (conv b) = f a b) -> scalar_in_order (FO := FO) dim n order (on_points f) (on_points f).
Proof.
  intros H [d|v] [d'|v'] o o'; cbn; try contradiction; auto. intros [-> (S1 & _)] Hv. cbn. rewrite (oo_estimate _ _ _ _ _ (vo_object _ _ _ _ _ Hv)).
  apply H; auto. apply (oo_sized _ _ _ _ _ (vo_object _ _ _ _ _ Hv)).
Qed.
Lemma conv_perm (m : points RNum) : sized dim n m -> Permutation (flatten (conv m)) (flatten m).
Proof. intros S. rewrite (flat_conv dim n Hdim order Ho). apply (picks_perm _ _ Ho). apply (sized_flat dim n Hdim), S. Qed.
Lemma frobenius_order : scalar_in_order (FO := FO) dim n order frobenius frobenius.
Proof.
  apply on_points_order. intros a b Sa Sb. unfold frobenius_arrays. destruct (sub_order a b Sa Sb) as (m & -> & S & ->).
  do 2 f_equal. apply norm2_perm, conv_perm, S.
Qed.
Lemma manhattan_order : scalar_in_order (FO := FO) dim n order mean_manhattan mean_manhattan.
Proof.
  apply on_points_order. intros a b Sa Sb. unfold mean_manhattan_arrays. destruct (sub_order a b Sa Sb) as (m & -> & S & ->). f_equal.
  pose proof (conv_shaped dim n Hdim order Ho m) as S'. pose proof (norm1_perm _ _ (conv_perm m S)) as E. unfold flatten in E. rewrite <- !norm1_rows in E.
  assert (G : forall l : points RNum, sized dim n l -> mean (map norm1 l) = @DFin RNum (rsum (map norm1 l) / INR n)).
  { intros l [L _]. assert (E0 : length (map norm1 l) = n) by (etransitivity; [apply map_length|exact L]). unfold mean. rewrite E0.
    destruct l; [exfalso; cbn in E0; lia|reflexivity]. }
  rewrite (G _ S), (G _ S'), E. reflexivity.
Qed.
End D.

Section E.
Context {FO : filter_ops RNum}.
Variables dim n : nat.
Hypothesis Hdim : (0 < dim)%nat.
Hypothesis Hn : (0 < n)%nat.
Variables sigma tau : list nat.
Hypothesis Hs : Permutation sigma (seq 0 n).
Hypothesis Ht : Permutation tau (seq 0 dim).
Lemma euclidean_order : scalar_in_order (FO := FO) dim n (pa_order dim sigma tau) mean_euclidean mean_euclidean.
Proof.
  pose proof (pa_is_order dim n Hdim sigma tau Hs Ht) as Ho.
  apply on_points_order. intros a b Sa Sb. unfold mean_euclidean_arrays. destruct (sub_order dim n Hdim Hn _ Ho a b Sa Sb) as (m & -> & S & ->). f_equal.
  rewrite (pa_in_order dim n Hdim) by auto. apply mean_perm. unfold points_and_axes.
  eapply Permutation_trans; [apply Permutation_map, (picks_perm n sigma Hs); rewrite map_length; apply S|].
  rewrite map_map. destruct S as [_ F]. assert (E : map (fun x => norm2 (picks (@n0 RNum) tau x)) m = map norm2 m); [|rewrite E; reflexivity].
  apply map_ext_in. intros r Hr. rewrite Forall_forall in F. apply norm2_perm, (picks_perm dim tau Ht), F, Hr.
Qed.
End E.

(** Boxes with x and y exchanged. *)
Definition exchanged : list nat := pa_order 2 [0; 1]%nat [1; 0]%nat.
Lemma exchanged_order : is_order 2 2 exchanged.
Proof. apply pa_is_order; [lia|reflexivity|]. apply perm_swap. Qed.
Lemma iou_order : vector_in_order (N := RNum) 2 2 exchanged iou iou.
Proof.
  assert (G : forall p : points RNum, sized 2 2 p -> exists a b c d : R, flatten p = [a; b; c; d] /\ flatten (in_order 2 exchanged p) = [b; a; d; c]).
  { intros p [L F]. destruct p as [|r [|q [|]]]; try discriminate. inversion F as [|? ? Hr F2]; subst. inversion F2 as [|? ? Hq _]; subst.
    destruct r as [|a [|b [|]]]; try discriminate. destruct q as [|c [|d [|]]]; try discriminate. exists a, b, c, d. split; reflexivity. }
  intros ps qs Fp Fq. unfold iou.
  assert (L : forall (g : nat -> bool) l, Forall (sized 2 2) l -> g 4%nat = true -> forallb (fun c : list RNum => g (length c)) (map (fun p : points RNum => flatten (in_order 2 exchanged p)) l) = true /\
     forallb (fun c : list RNum => g (length c)) (map flatten l) = true).
  { intros g l Fl Hg. induction Fl as [|p l Hp _ [IH1 IH2]]; [auto|]. destruct (G p Hp) as (a & b & c & d & E1 & E2). cbn [map forallb]. rewrite E1, E2, IH1, IH2. cbn [length]. rewrite Hg. auto. }
  destruct (L (fun k => Nat.eqb k 4) ps Fp eq_refl) as [A1 A2]. destruct (L (fun k => Nat.leb 4 k) qs Fq eq_refl) as [B1 B2]. destruct (L (fun k => Nat.eqb k 4) qs Fq eq_refl) as [C1 C2].
  cbn beta in *. rewrite A1, A2, B1, B2, C1, C2. f_equal. rewrite !map_map. apply map_ext_in. intros p Hp. rewrite !map_map. apply map_ext_in. intros q Hq.
  rewrite Forall_forall in Fp, Fq. destruct (G p (Fp p Hp)) as (a & b & c & d & E1 & E2). destruct (G q (Fq q Hq)) as (a' & b' & c' & d' & E1' & E2'). rewrite E1, E2, E1', E2'.
  unfold iou_entry, box_area. cbn [nth nmul RNum nsub nadd]. f_equal. f_equal; [apply Rmult_comm|]. rewrite (Rmult_comm (d - b)), (Rmult_comm (d' - b')).
  f_equal. apply Rmult_comm.
Qed.

Section V.
Context {FO : filter_ops RNum}.
Variables (hit_max delay pointwise_max : Z) (det_thr : R) (past_len : nat).
Notation conf f thr := (MkTconf (FO := FO) f (@DFin RNum thr) hit_max delay pointwise_max (det_thr : RNum) past_len None (@DFin RNum 0) None (fun d => d)).
Lemma any_order dim n order R0 f thr ins ins' h g dummy dummy' : (0 < dim)%nat -> (0 < n)%nat -> is_order dim n order -> filter_in_order (FO := FO) dim n order R0 ->
  In f [frobenius; mean_manhattan] -> (forall r, det_unscored dim n (h r)) -> Forall2 (input_in_order dim n order) ins ins' ->
  Forall2 (outcome_in_order dim n order) (outcomes (conf (ScalarDistance f) thr) (new_tracker h g dummy) ins)
    (outcomes (conf (ScalarDistance f) thr) (new_tracker (fun r => det_in_order dim order (h r)) g dummy') ins').
Proof.
  intros Hd Hn Ho HR Hf Hh Hi. apply (tracking_in_order dim n Hd Hn order Ho R0 HR); auto. split; cbn; auto; [|repeat split].
  destruct Hf as [<-|[<-|[]]]; [apply frobenius_order|apply manhattan_order]; auto.
Qed.
Lemma points_axes_order dim n sigma tau R0 thr ins ins' h g dummy dummy' : (0 < dim)%nat -> (0 < n)%nat -> Permutation sigma (seq 0 n) -> Permutation tau (seq 0 dim) ->
  filter_in_order (FO := FO) dim n (pa_order dim sigma tau) R0 ->
  (forall r, det_unscored dim n (h r)) -> Forall2 (input_in_order dim n (pa_order dim sigma tau)) ins ins' ->
  Forall2 (outcome_in_order dim n (pa_order dim sigma tau)) (outcomes (conf (ScalarDistance mean_euclidean) thr) (new_tracker h g dummy) ins)
    (outcomes (conf (ScalarDistance mean_euclidean) thr) (new_tracker (fun r => det_in_order dim (pa_order dim sigma tau) (h r)) g dummy') ins').
Proof.
  intros Hd Hn Hs Ht HR Hh Hi. apply (tracking_in_order dim n Hd Hn _ (pa_is_order dim n Hd sigma tau Hs Ht) R0 HR); auto. split; cbn; auto; [|repeat split].
  apply euclidean_order; auto.
Qed.
Lemma boxes_order R0 thr ins ins' h g dummy dummy' : filter_in_order (FO := FO) 2 2 (pa_order 2 [0; 1]%nat [1; 0]%nat) R0 ->
  (forall r, det_unscored 2 2 (h r)) -> Forall2 (input_in_order 2 2 (pa_order 2 [0; 1]%nat [1; 0]%nat)) ins ins' ->
  Forall2 (outcome_in_order 2 2 (pa_order 2 [0; 1]%nat [1; 0]%nat)) (outcomes (conf (VectorizedDistance iou) thr) (new_tracker h g dummy) ins)
    (outcomes (conf (VectorizedDistance iou) thr) (new_tracker (fun r => det_in_order 2 (pa_order 2 [0; 1]%nat [1; 0]%nat) (h r)) g dummy') ins').
Proof.
  intros HR Hh Hi. apply (tracking_in_order 2 2 (Nat.lt_0_succ 1) (Nat.lt_0_succ 1) _ exchanged_order R0 HR); auto. split; cbn; auto; [|repeat split]. exact iou_order.
Qed.
End V.

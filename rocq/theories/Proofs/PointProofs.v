(** Masks of detected points: C25, C26. *)
From Coq Require Import ZArith Bool Lia Permutation List Arith.
From Verif Require Import Model.Num Model.Base Model.Matching Model.Filter Model.Tracker Spec.MatchingSpec.
From Verif Require Import Proofs.TrackerFrame Proofs.Identity Proofs.Effect Proofs.CallEffect Proofs.CallProps Proofs.CallTheorems
  Proofs.CallTheorems2 Proofs.CallTheorems3 Proofs.CallTheorems6.
From Verif Require Import Spec.CallSpec Spec.PointSpec.
Import ListNotations.

(* ---- lists ---- *)
Lemma repeat_each_length {A} d (l : list A) : length (repeat_each d l) = d * length l.
Proof.
  unfold repeat_each. induction l as [|a l IH]; cbn; [lia|]. rewrite app_length, repeat_length, IH. lia.
Qed.
Lemma map_repeat {A B} (g : A -> B) a n : map g (repeat a n) = repeat (g a) n.
Proof. induction n as [|n IH]; cbn; congruence. Qed.
Lemma repeat_each_map {A B} (g : A -> B) d l : repeat_each d (map g l) = map g (repeat_each d l).
Proof.
  unfold repeat_each. induction l as [|a l IH]; cbn; auto. rewrite map_app, IH, map_repeat. reflexivity.
Qed.
Lemma tile_length {A} d (l : list A) : length (tile d l) = d * length l.
Proof. unfold tile. induction d as [|d IH]; cbn; [lia|]. rewrite app_length, IH. lia. Qed.
Lemma map2_length {A B C} (g : A -> B -> C) a b : length (map2 g a b) = min (length a) (length b).
Proof. unfold map2. rewrite map_length, combine_length. reflexivity. Qed.

Lemma nth_error_repeat {A} (a : A) d k : k < d -> nth_error (repeat a d) k = Some a.
Proof. revert k. induction d as [|d IH]; intros [|k] H; cbn; try lia; auto. apply IH. lia. Qed.

Lemma nth_error_repeat_each {A} d (l : list A) k : 0 < d -> nth_error (repeat_each d l) k = nth_error l (k / d).
Proof.
  intros Hd. revert k. unfold repeat_each. induction l as [|a l IH]; intros k; cbn [flat_map].
  - destruct (k / d), k; reflexivity.
  - destruct (lt_dec k d) as [H|H].
    + rewrite nth_error_app1 by (rewrite repeat_length; auto). rewrite Nat.div_small by auto. cbn. apply nth_error_repeat; auto.
    + rewrite nth_error_app2 by (rewrite repeat_length; lia). rewrite repeat_length, IH.
      replace (k / d) with (S ((k - d) / d)); [reflexivity|].
      replace k with ((k - d) + 1 * d) at 2 by lia. rewrite Nat.div_add by lia. lia.
Qed.
Lemma nth_error_tile {A} d (l : list A) k : k < d * length l -> nth_error (tile d l) k = nth_error l (k mod length l).
Proof.
  unfold tile. revert k. induction d as [|d IH]; intros k H; cbn in *; [lia|].
  destruct (lt_dec k (length l)) as [L|L].
  - rewrite nth_error_app1 by auto. rewrite Nat.mod_small by auto. reflexivity.
  - rewrite nth_error_app2 by lia. rewrite IH by lia. f_equal.
    replace k with ((k - length l) + 1 * length l) at 2 by lia. rewrite Nat.mod_add by lia. reflexivity.
Qed.
Lemma first_mask_length dim now once : length now = length once -> length (first_detection_mask dim now once) = dim * length now.
Proof.
  intros H. unfold first_detection_mask. rewrite map2_length, map_length, tile_length, repeat_each_length, H. lia.
Qed.
Lemma nth_error_first_mask dim now once k : length now = length once -> k < dim * length now ->
  nth_error (first_detection_mask dim now once) k = Some (nth (k mod length now) now false && negb (nth (k / dim) once true)).
Proof.
  intros H Hk. assert (0 < dim) by (destruct dim; lia).
  assert (0 < length now) by (destruct (length now); lia).
  unfold first_detection_mask. apply nth_error_map2.
  - rewrite nth_error_tile by auto. apply nth_error_nth'. apply Nat.mod_upper_bound. lia.
  - rewrite nth_error_map, nth_error_repeat_each by auto.
    rewrite (nth_error_nth' once true) by (rewrite <- H; apply Nat.div_lt_upper_bound; lia).
    reflexivity.
Qed.

(* ---- agreement of two vectors under a mask ---- *)
Inductive agree {A} : list bool -> list A -> list A -> Prop :=
| agree_nil : agree [] [] []
| agree_cons b m x z y z' : (b = true -> x = y) -> agree m z z' -> agree (b :: m) (x :: z) (y :: z').

Lemma agree_iff {A} m (z z' : list A) : agree m z z' <-> length z = length m /\ length z' = length m /\
  forall k, nth_error m k = Some true -> nth_error z k = nth_error z' k.
Proof.
  split.
  - induction 1 as [|b m x z y z' Hb H (L1 & L2 & IH)]; cbn; [repeat split; auto; intros [|k]; auto|].
    repeat split; try lia. intros [|k]; cbn; auto. intros [= ->]. f_equal. auto.
  - revert z z'. induction m as [|b m IH]; intros [|x z] [|y z'] (L1 & L2 & H); cbn in *; try lia; constructor.
    + intros ->. specialize (H 0 eq_refl). cbn in H. congruence.
    + apply IH. repeat split; try lia. intros k. exact (H (S k)).
Qed.
Lemma agree_app {A} m1 m2 (z1 z1' z2 z2' : list A) : agree m1 z1 z1' -> agree m2 z2 z2' -> agree (m1 ++ m2) (z1 ++ z2) (z1' ++ z2').
Proof. induction 1; cbn; auto. constructor; auto. Qed.
Lemma agree_same {A} m (z : list A) : length z = length m -> agree m z z.
Proof. intros H. apply agree_iff. auto. Qed.
Lemma agree_false {A} d (z z' : list A) : length z = d -> length z' = d -> agree (repeat false d) z z'.
Proof.
  intros H H'. apply agree_iff. rewrite repeat_length. repeat split; auto. intros k E.
  apply nth_error_In, repeat_spec in E. discriminate.
Qed.
Lemma agree_rows {A} d : forall (mask : list bool) (p p' : list (list A)), length mask = length p ->
  Forall (fun row => length row = d) p -> map (@length A) p = map (@length A) p' ->
  (forall k, nth_error mask k = Some true -> nth_error p k = nth_error p' k) ->
  agree (repeat_each d mask) (concat p) (concat p').
Proof.
  induction mask as [|b mask IH]; intros [|r p] [|r' p'] L F E H; cbn in *; try discriminate; try constructor.
  inversion F as [|? ? F1 F2]; subst. injection E as E1 E2. apply agree_app.
  - destruct b; [|apply agree_false; auto].
    specialize (H 0 eq_refl). cbn in H. injection H as <-. apply agree_same. rewrite repeat_length. reflexivity.
  - apply IH; auto. intros k. exact (H (S k)).
Qed.
Lemma mask_assign_agree {A} m (z z' : list A) : agree m z z' -> forall x, mask_assign m z x = mask_assign m z' x.
Proof.
  induction 1 as [|b m a z a' z' Hb H IH]; intros x; [reflexivity|]. destruct x as [|y x]; cbn; [reflexivity|].
  rewrite IH. destruct b; [rewrite Hb by auto|]; reflexivity.
Qed.

(* ---- positions ---- *)
Lemma nth_error_firstn {A} (l : list A) n k : nth_error (firstn n l) k = if k <? n then nth_error l k else None.
Proof.
  revert n k. induction l as [|a l IH]; intros [|n] [|k]; cbn; auto.
  - destruct n; [|destruct (k <=? n)]; reflexivity.
  - rewrite IH. reflexivity.
Qed.
Lemma nth_error_skipn {A} (l : list A) n k : nth_error (skipn n l) k = nth_error l (n + k).
Proof. revert l. induction n as [|n IH]; intros [|a l]; cbn; auto. destruct k; reflexivity. Qed.
Lemma skipn_skipn {A} a b (l : list A) : skipn a (skipn b l) = skipn (b + a) l.
Proof. revert l. induction b as [|b IH]; intros [|x l]; cbn; auto. destruct a; reflexivity. Qed.
Lemma nth_error_ext {A} (l l' : list A) : (forall k, nth_error l k = nth_error l' k) -> l = l'.
Proof.
  revert l'. induction l as [|a l IH]; intros [|b l'] H; auto; try (specialize (H 0); discriminate).
  f_equal; [specialize (H 0); cbn in H; congruence|]. apply IH. intros k. exact (H (S k)).
Qed.

Section Shapes.
Context {N : Num}.

Lemma chunks_nth d : 0 < d -> forall fuel (v : list N) k, length v <= fuel -> k * d < length v ->
  nth_error (chunks_fuel fuel d v) k = Some (firstn d (skipn (k * d) v)).
Proof.
  intros Hd. induction fuel as [|f IH]; intros v k L Hk; [lia|].
  destruct v as [|a v]; [cbn in Hk; lia|]. cbn [chunks_fuel]. destruct k as [|k].
  - reflexivity.
  - cbn [nth_error]. rewrite IH.
    + rewrite skipn_skipn. reflexivity.
    + rewrite skipn_length. cbn [length] in *. lia.
    + rewrite skipn_length. cbn [length] in *. lia.
Qed.
Lemma reshape_nth d (v : list N) k : 0 < d -> k * d < length v ->
  nth_error (reshape_rows d v) k = Some (firstn d (skipn (k * d) v)).
Proof. intros. apply chunks_nth; auto. Qed.

Lemma nth_error_flatten d : 0 < d -> forall (p : points N) k, Forall (fun row => length row = d) p ->
  nth_error (flatten p) k = match nth_error p (k / d) with Some row => nth_error row (k mod d) | None => None end.
Proof.
  intros Hd. unfold flatten. induction p as [|r p IH]; intros k F; cbn [concat].
  - destruct (k / d), k; reflexivity.
  - inversion F as [|? ? F1 F2]; subst. destruct (lt_dec k (length r)) as [L|L].
    + rewrite nth_error_app1 by auto. rewrite Nat.div_small, Nat.mod_small by auto. reflexivity.
    + rewrite nth_error_app2 by lia. rewrite IH by auto.
      replace (k / length r) with (S ((k - length r) / length r)).
      * cbn. replace (k mod length r) with ((k - length r) mod length r); [reflexivity|].
        replace k with ((k - length r) + 1 * length r) at 2 by lia. rewrite Nat.mod_add by lia. reflexivity.
      * replace k with ((k - length r) + 1 * length r) at 2 by lia. rewrite Nat.div_add by lia. lia.
Qed.
Lemma flatten_length n d (p : points N) : rectangular n d p -> length (flatten p) = d * n.
Proof.
  intros [<- F]. unfold flatten. induction F as [|r p H F IH]; cbn; [lia|]. rewrite app_length, IH. lia.
Qed.
Lemma reshape_flatten n d (p : points N) : rectangular n d p -> 0 < d -> reshape_rows d (flatten p) = p.
Proof.
  intros R Hd. pose proof (flatten_length _ _ _ R) as L. destruct R as [Hn F]. unfold reshape_rows. rewrite L. subst n. clear L.
  enough (H : forall fuel, length (flatten p) <= fuel -> chunks_fuel fuel d (flatten p) = p).
  { apply H. rewrite (flatten_length (length p) d p); [lia|split; auto]. }
  unfold flatten. induction F as [|r p H F IH]; intros fuel L; cbn in *.
  - destruct fuel; reflexivity.
  - rewrite app_length in L. destruct fuel as [|fuel]; [lia|]. destruct r as [|a r]; [cbn in H; lia|]. cbn [app chunks_fuel] in *.
    rewrite app_comm_cons, firstn_app, skipn_app, H, Nat.sub_diag, firstn_all2, skipn_all2 by (cbn in *; lia). cbn. rewrite app_nil_r.
    rewrite IH; auto. cbn in *. lia.
Qed.
End Shapes.

Section PointProofs.
Context {N : Num} {FO : filter_ops N} (laws : NumLaws N).
Notation st := (st FO).
Notation tobj := (tobj FO).
Notation frame := (CallSpec.frame FO).

Lemma absolute_estimate_eq (o : tobj) :
  absolute_estimate o = reshape_rows (oc_dim_points (o_conf o)) (firstn (dim_z o) (f_x FO (o_filter o))).
Proof. unfold absolute_estimate, estimate, get_estimate. destruct (o_abs_to_rel o); reflexivity. Qed.

Lemma over_true thr n (d : detection N) k : length (over_threshold thr n d) = n ->
  nth_error (over_threshold thr n d) k = Some true <-> k < n /\ above thr d k.
Proof.
  unfold over_threshold, above. destruct (d_scores d) as [sc|]; intros L.
  - rewrite nth_error_map. rewrite map_length in L. split.
    + destruct (nth_error sc k) as [x|] eqn:E; cbn; [|discriminate]. intros [= H]. split; [|eauto].
      rewrite <- L. apply nth_error_Some. congruence.
    + intros [_ (x & -> & H)]. cbn. congruence.
  - split.
    + intros H. split; auto. rewrite <- L at 1. apply nth_error_Some. congruence.
    + intros [H _]. apply nth_error_repeat; auto.
Qed.
Lemma over_nth thr n (d : detection N) k : length (over_threshold thr n d) = n -> k < n ->
  nth k (over_threshold thr n d) false = true <-> above thr d k.
Proof.
  intros L Hk. pose proof (over_true thr n d k L) as H. rewrite (nth_error_nth' _ false) in H by (rewrite L; auto).
  split; [intros E; apply H; congruence|intros A; enough (X : Some (nth k (over_threshold thr n d) false) = Some true) by congruence; apply H; auto].
Qed.

Lemma same_age_scores (h h' : nat -> detection N) r : heap_age h h' -> d_scores (h' r) = d_scores (h r) /\
  d_absolute_points (h' r) = d_absolute_points (h r) /\ d_points (h' r) = d_points (h r).
Proof. intros H. destruct (H r) as (A & B & C & D & E). auto. Qed.

Definition fits (wf : nat -> fstate FO -> Prop) (o : tobj) : Prop := wf (dim_z o) (o_filter o).

(* C25 *)
Lemma hit_filter_same (d d' : detection N) r r' p p' (o o1 o1' om om' : tobj) ct wf :
  regular FO wf -> ignores_unmeasured FO wf -> fits wf o ->
  upto_min (obj_update_ct ct (tracker_step o)) om -> upto_min (obj_update_ct ct (tracker_step o)) om' ->
  hit_rel d r p om o1 -> hit_rel d' r' p' om' o1' ->
  agree_above (oc_det_thr (o_conf o)) d d' ->
  rectangular (oc_num_points (o_conf o)) (oc_dim_points (o_conf o)) (d_absolute_points d) ->
  (forall k, k < oc_dim_points (o_conf o) * oc_num_points (o_conf o) ->
     above (oc_det_thr (o_conf o)) d (k mod oc_num_points (o_conf o)) ->
     nth_error (o_once o) (k / oc_dim_points (o_conf o)) = Some true \/
     above (oc_det_thr (o_conf o)) d (k / oc_dim_points (o_conf o))) ->
  o_filter o1 = o_filter o1' /\ o_conf o1 = o_conf o /\ o_conf o1' = o_conf o /\ o_abs_to_rel o1 = o_abs_to_rel o1'.
Proof.
  intros Rg Hig Hft [m ->] [m' ->] H1 H2 [As Ash Ap] [Rn Rd] Leak.
  pose proof (hr_filter _ _ _ _ _ H1) as F1. pose proof (hr_filter _ _ _ _ _ H2) as F2.
  pose proof (hr_mask_len _ _ _ _ _ H1) as ML. pose proof (hr_once_len _ _ _ _ _ H1) as OL.
  pose proof (hr_conf _ _ _ _ _ H1) as C1. pose proof (hr_conf _ _ _ _ _ H2) as C2.
  pose proof (hr_ct _ _ _ _ _ H1) as T1. pose proof (hr_ct _ _ _ _ _ H2) as T2.
  assert (Eo : over_threshold (oc_det_thr (o_conf o)) (oc_num_points (o_conf o)) d' =
               over_threshold (oc_det_thr (o_conf o)) (oc_num_points (o_conf o)) d).
  { unfold over_threshold. rewrite As. reflexivity. }
  assert (X : forall om : tobj, om = set_min_distance m (obj_update_ct ct (tracker_step o)) \/ om = set_min_distance m' (obj_update_ct ct (tracker_step o)) ->
     o_conf om = o_conf o /\ o_once om = o_once o /\ o_filter om = f_predict FO (o_filter o) /\ dim_z om = dim_z o
     /\ o_abs_to_rel om = o_abs_to_rel (obj_update_ct ct (tracker_step o))).
  { intros om [-> | ->]; destruct ct; repeat split; reflexivity. }
  destruct (X _ (or_introl eq_refl)) as (X1 & X2 & X3 & X4 & X5).
  destruct (X _ (or_intror eq_refl)) as (Y1 & Y2 & Y3 & Y4 & Y5).
  rewrite X1, ?X2, ?X3, ?X4, ?X5 in *. rewrite Y1, ?Y2, ?Y3, ?Y4, ?Y5 in *. rewrite Eo in F2. cbv zeta in F1, F2.
  set (mask := over_threshold (oc_det_thr (o_conf o)) (oc_num_points (o_conf o)) d) in *.
  set (dim := oc_dim_points (o_conf o)) in *. set (n := oc_num_points (o_conf o)) in *.
  repeat split; try congruence.
  assert (AG : agree (repeat_each dim mask) (flatten (d_absolute_points d)) (flatten (d_absolute_points d'))).
  { apply agree_rows; auto; [congruence|]. intros k Hk. apply Ap. apply (over_true _ n d k ML) in Hk. apply Hk. }
  pose proof AG as AG'. apply agree_iff in AG' as (L1 & L2 & AG').
  assert (LM : length (repeat_each dim mask) = dim_z o) by (rewrite repeat_each_length, ML; reflexivity).
  pose proof (Hig (dim_z o) (f_predict FO (o_filter o)) (repeat_each dim mask) _ _ (rg_predict _ Rg _ _ Hft) LM
    (eq_trans L1 LM) (eq_trans L2 LM) AG') as EU. unfold bits in EU.
  rewrite <- !repeat_each_map in EU. rewrite F1, F2, EU. f_equal. unfold reset_first_detected. f_equal.
  apply mask_assign_agree, agree_iff. rewrite first_mask_length by congruence.
  rewrite repeat_each_length in L1, L2. repeat split; auto. intros k Hk.
  assert (Kb : k < dim * length mask).
  { rewrite <- (first_mask_length dim mask (o_once o)) by congruence. apply nth_error_Some. congruence. }
  rewrite nth_error_first_mask in Hk by (auto; congruence). injection Hk as Hk. apply andb_true_iff in Hk as [K1 K2].
  apply AG'. assert (0 < dim) by (destruct dim; lia). rewrite nth_error_repeat_each by auto.
  rewrite ML in K1, Kb. assert (0 < n) by (destruct n; lia).
  apply (over_nth _ n d) in K1; [|auto|apply Nat.mod_upper_bound; lia].
  destruct (Leak k Kb K1) as [B|B].
  - rewrite (nth_error_nth _ _ true B) in K2. discriminate.
  - apply (over_true _ n d); auto. split; auto. apply Nat.div_lt_upper_bound; lia.
Qed.

Theorem ignored_points c (s1 s2 s1' s2' : st) dets1 dets2 p1 p2 ct out1 out2 i wf :
  regular FO wf -> ignores_unmeasured FO wf -> fits wf (s_store s1 i) -> rnd_ok (tc_rnd c) -> tracker_state c s1 -> tracker_state c s2 -> tc_reid_distance c = None ->
  update c (Some dets1) p1 ct s1 = (s1', Ret out1) -> update c (Some dets2) p2 ct s2 = (s2', Ret out2) ->
  tracked s1 i -> tracked s2 i -> s_store s1 i = s_store s2 i ->
  In (last_det s1' i) dets1 -> ~ In (last_det s1 i) dets1 ->
  In (last_det s2' i) dets2 -> ~ In (last_det s2 i) dets2 ->
  let d1 := s_heap s1' (last_det s1' i) in
  let d2 := s_heap s2' (last_det s2' i) in
  let thr := tc_det_thr c in
  agree_above thr d1 d2 ->
  rectangular (num_points s1 i) (dim_points s1 i) (d_absolute_points d1) ->
  (forall k, k < dim_points s1 i * num_points s1 i -> above thr d1 (k mod num_points s1 i) ->
     detected_before s1 i (k / dim_points s1 i) \/ above thr d1 (k / dim_points s1 i)) ->
  (forall absolute, get_estimate (s_store s1' i) absolute = get_estimate (s_store s2' i) absolute) /\
  estimate_velocity (s_store s1' i) = estimate_velocity (s_store s2' i).
Proof.
  intros Rg Hig Hft Hr T1 T2 Nr E1 E2 Ht1 Ht2 Es S1 F1 S2 F2 d1 d2 thr AA RC Leak.
  apply tracker_state_good in T1. apply tracker_state_good in T2.
  assert (Co : oc_det_thr (o_conf (s_store s1 i)) = thr).
  { destruct T1 as [TI CO]. apply (co_thr _ _ (CO i (valid_tracked _ _ TI Ht1))). }
  destruct (update_summary laws _ _ _ _ _ _ _ Hr (proj1 T1) E1) as (? & ? & ? & ? & SU1 & _).
  destruct (update_summary laws _ _ _ _ _ _ _ Hr (proj1 T2) E2) as (? & ? & ? & ? & SU2 & _).
  pose proof (su_heap _ _ _ _ _ _ _ _ _ _ SU1) as HA1. pose proof (su_heap _ _ _ _ _ _ _ _ _ _ SU2) as HA2.
  cbn [dets_of] in HA1, HA2.
  destruct (update_fate laws _ _ _ _ _ _ _ i Hr T1 E1 Ht1) as [A B D|A B D|r dist om A B D F G0 G1|j om A B R0]; [| | |congruence].
  { unfold last_det in S1, F1. rewrite D in S1. contradiction. }
  { unfold last_det in S1, F1. rewrite (um_last _ _ D), st_last in S1. contradiction. }
  destruct (update_fate laws _ _ _ _ _ _ _ i Hr T2 E2 Ht2) as [A' B' D'|A' B' D'|r' dist' om' A' B' D' F' G0' G1'|j om' A' B' R0]; [| | |congruence].
  { unfold last_det in S2, F2. rewrite D' in S2. contradiction. }
  { unfold last_det in S2, F2. rewrite (um_last _ _ D'), st_last in S2. contradiction. }
  destruct F as (o1 & F & Q1). destruct F' as (o1' & F' & Q2).
  assert (L1 : last_det s1' i = r) by (unfold last_det; rewrite Q1; apply (hr_last _ _ _ _ _ F)).
  assert (L2 : last_det s2' i = r') by (unfold last_det; rewrite Q2; apply (hr_last _ _ _ _ _ F')).
  subst d1 d2. rewrite L1 in *. rewrite L2 in *.
  destruct (same_age_scores _ _ r HA1) as (U1 & U2 & _). destruct (same_age_scores _ _ r' HA2) as (U1' & U2' & _).
  rewrite <- Es in D'.
  assert (Ab : forall k, above thr (s_heap s1' r) k <-> above thr (ct_heap ct dets1 s1 r) k) by (intros; apply above_scores; auto).
  destruct (hit_filter_same (ct_heap ct dets1 s1 r) (ct_heap ct dets2 s2 r') r r' p1 p2 (s_store s1 i) o1 o1' om om' ct wf) as (W1 & W2 & W3 & W4); auto.
  - rewrite Co. destruct AA as [Q3 Q4 Q5]. split; [congruence|congruence|]. intros k Hk. rewrite <- U2, <- U2'. apply Q5, Ab, Hk.
  - rewrite <- U2. exact RC.
  - rewrite Co. intros k Hk Hk2. destruct (Leak k Hk) as [X|X]; [apply Ab; auto|left; exact X|right; apply Ab; auto].
  - split.
    + intros ab. unfold get_estimate, dim_z. rewrite Q1, Q2. cbn. rewrite W1, W2, W3, W4. reflexivity.
    + unfold estimate_velocity, dim_z. rewrite Q1, Q2. cbn. rewrite W1, W2, W3. reflexivity.
Qed.

(* the whole history of an object, when there is no re-identification *)
Theorem object_history c (s : st) f0 fs i (P : list frame -> tobj -> Prop) :
  rnd_ok (tc_rnd c) -> tracker_state c s -> tc_reid_distance c = None -> video c s (f0 :: fs) ->
  s_icount (f_pre f0) < i <= s_icount (f_post f0) ->
  (forall r, In r (f_dets f0) -> r = last_det (f_post f0) i -> heap_age (ct_heap (f_ct f0) (f_dets f0) (f_pre f0)) (s_heap (f_post f0)) ->
     new_rel c (ct_heap (f_ct f0) (f_dets f0) (f_pre f0)) r (f_period f0) (f_ct f0) i (s_store (f_post f0) i) ->
     P [f0] (s_store (f_post f0) i)) ->
  (forall past f, In f fs -> past <> [] -> conf_ok c (s_store (f_pre f) i) -> P past (s_store (f_pre f) i) ->
     ~ (seen f i /\ fresh f i) ->
     upto_min (obj_update_ct (f_ct f) (tracker_step (s_store (f_pre f) i))) (s_store (f_post f) i) ->
     P (past ++ [f]) (s_store (f_post f) i)) ->
  (forall past f r dist om, In f fs -> past <> [] -> conf_ok c (s_store (f_pre f) i) -> P past (s_store (f_pre f) i) ->
     In r (f_dets f) -> r = last_det (f_post f) i -> heap_age (ct_heap (f_ct f) (f_dets f) (f_pre f)) (s_heap (f_post f)) ->
     upto_min (obj_update_ct (f_ct f) (tracker_step (s_store (f_pre f) i))) om ->
     hit_obj_rel (ct_heap (f_ct f) (f_dets f) (f_pre f)) (f_period f) r dist om (s_store (f_post f) i) ->
     P (past ++ [f]) (s_store (f_post f) i)) ->
  forall n f, nth_error (f0 :: fs) n = Some f -> tracked (f_post f) i -> P (firstn (S n) (f0 :: fs)) (s_store (f_post f) i).
Proof.
  intros Hr Ht Nr V Hi Pnew Pmiss Phit. apply tracker_state_good in Ht.
  destruct (video_cons_inv laws _ _ _ _ V Hr Ht) as (Gp & Gq & E & Eo & S1 & S2 & S3 & V').
  destruct (new_object laws _ _ _ _ _ _ _ _ Hr Gp E Hi) as (Hti0 & r & Hri & NR). cbn [dets_of] in *.
  assert (H : forall fs' (s : st) past, incl fs' fs -> past <> [] -> good c s -> video c s fs' -> tracked s i -> P past (s_store s i) ->
    forall n f, nth_error fs' n = Some f -> tracked (f_post f) i -> P (past ++ firstn (S n) fs') (s_store (f_post f) i)).
  { clear -laws Hr Nr Pmiss Phit. induction fs' as [|f1 fs' IH]; intros s past Hin Hp Hg V Hi Ha n f Hf Hti; [destruct n; discriminate|].
    destruct (video_cons_inv laws _ _ _ _ V Hr Hg) as (Gp & Gq & E & Eo & S1 & S2 & S3 & V').
    assert (Hi1 : tracked (f_pre f1) i) by (unfold tracked; rewrite S2; exact Hi).
    assert (Hti0 : tracked (f_post f1) i).
    { destruct n as [|n]; cbn in Hf; [injection Hf as <-; exact Hti|].
      destruct (in_dec Nat.eq_dec i (s_tracked (f_post f1))) as [|Hn]; auto. exfalso.
      eapply (gone_stays laws c (f_post f1) fs' i Hr Gq V'); eauto.
      apply update_icount in E; auto. pose proof (valid_tracked _ _ (proj1 Gp) Hi1). unfold valid in *. lia. }
    assert (Hf1 : In f1 fs) by (apply Hin; left; auto).
    assert (A1 : P (past ++ [f1]) (s_store (f_post f1) i)).
    { destruct (frame_fate laws _ _ _ _ i V Hr Hg Hi) as (F & CO).
      destruct F as [A B D|A B D|r d om A B D F G0 G1|j om A B R0 I0 D F F' L G0 G1].
      - contradiction.
      - apply Pmiss; auto; [rewrite S1; auto|]. intros [X Y]. apply Y. unfold seen, last_det in X |- *.
        rewrite (um_last _ _ D), st_last in X. exact X.
      - destruct (update_summary laws _ _ _ _ _ _ _ Hr (proj1 Gp) E) as (? & ? & ? & ? & SU & _).
        pose proof (su_heap _ _ _ _ _ _ _ _ _ _ SU) as HA. cbn in HA.
        eapply Phit; eauto; [rewrite S1; auto|]. destruct F as (o1 & F1 & F2). unfold last_det. rewrite F2. cbn.
        symmetry. apply (hr_last _ _ _ _ _ F1).
      - congruence. }
    destruct n as [|n]; cbn in Hf.
    - injection Hf as <-. exact A1.
    - replace (past ++ firstn (S (S n)) (f1 :: fs')) with ((past ++ [f1]) ++ firstn (S n) fs') by (rewrite <- app_assoc; reflexivity).
      apply (IH (f_post f1) (past ++ [f1])); auto; [intros x Hx; apply Hin; right; auto|destruct past; discriminate]. }
  assert (HL : r = last_det (f_post f0) i) by (symmetry; apply (nr_last _ _ _ _ _ _ _ NR)).
  assert (HA : heap_age (ct_heap (f_ct f0) (f_dets f0) (f_pre f0)) (s_heap (f_post f0))).
  { destruct (update_summary laws _ _ _ _ _ _ _ Hr (proj1 Gp) E) as (? & ? & ? & ? & SU & _).
    apply (su_heap _ _ _ _ _ _ _ _ _ _ SU). }
  pose proof (Pnew r Hri HL HA NR) as P0.
  intros [|n] f Hf Hti; cbn in Hf.
  - injection Hf as <-. exact P0.
  - apply (H fs (f_post f0) [f0] (incl_refl _) ltac:(discriminate) Gq V' Hti0 P0 n f Hf Hti).
Qed.

(* C26 *)
Lemma mask_assign_length {A} m (z x : list A) : length (mask_assign m z x) = length x.
Proof. revert z x. induction m as [|b m IH]; intros [|a z] [|y x]; cbn; auto. Qed.
Lemma mask_fill_length {A} m (v : A) (x : list A) : length (mask_fill m v x) = length x.
Proof. revert x. induction m as [|b m IH]; intros [|y x]; cbn; auto. Qed.
Lemma mask_assign_nth {A} m : forall (z x : list A) k, length z = length m -> length x = length m ->
  nth_error (mask_assign m z x) k = match nth_error m k with Some true => nth_error z k | _ => nth_error x k end.
Proof.
  induction m as [|b m IH]; intros [|a z] [|y x] [|k] H1 H2; cbn in *; try lia; auto.
  - destruct b; reflexivity.
Qed.
Lemma mask_fill_nth {A} m (v : A) : forall (x : list A) k, length x = length m ->
  nth_error (mask_fill m v x) k = match nth_error m k with Some true => Some v | _ => nth_error x k end.
Proof.
  induction m as [|b m IH]; intros [|y x] [|k] H; cbn in *; try lia; auto.
  - destruct b; reflexivity.
Qed.

Lemma fits_step wf ct (o om : tobj) : regular FO wf -> fits wf o -> upto_min (obj_update_ct ct (tracker_step o)) om -> fits wf om.
Proof. intros R H [m ->]. unfold fits, dim_z in *. destruct ct; cbn; apply (rg_predict _ R); exact H. Qed.

Lemma fits_hit wf (d : detection N) r p (om o1 : tobj) : regular FO wf -> fits wf om -> hit_rel d r p om o1 -> fits wf o1.
Proof.
  intros R H F. unfold fits, dim_z. rewrite (hr_conf _ _ _ _ _ F), (hr_filter _ _ _ _ _ F). cbv zeta.
  assert (W : wf (dim_z om) (f_update FO (o_filter om) (flatten (d_absolute_points d))
       (repeat_each (oc_dim_points (o_conf om)) (map (fun m : bool => if m then n1 else n0)
          (over_threshold (oc_det_thr (o_conf om)) (oc_num_points (o_conf om)) d))))).
  { apply (rg_update _ R); auto; [apply (hr_dim _ _ _ _ _ F)|].
    rewrite repeat_each_length, map_length, (hr_mask_len _ _ _ _ _ F). reflexivity. }
  apply (rg_set _ R); auto. unfold reset_first_detected.
  rewrite app_length, mask_assign_length, mask_fill_length, firstn_length, skipn_length, (rg_x _ R _ _ W). unfold dim_z. lia.
Qed.

Lemma hit_x wf (d : detection N) r p (om o1 : tobj) : regular FO wf -> fits wf om -> hit_rel d r p om o1 ->
  let dim := oc_dim_points (o_conf om) in
  let mask := over_threshold (oc_det_thr (o_conf om)) (oc_num_points (o_conf om)) d in
  f_x FO (o_filter o1) = reset_first_detected dim (dim_z om) mask (o_once om) (flatten (d_absolute_points d))
    (f_x FO (f_update FO (o_filter om) (flatten (d_absolute_points d)) (repeat_each dim (map (fun m : bool => if m then n1 else n0) mask)))).
Proof.
  intros R H F dim mask. rewrite (hr_filter _ _ _ _ _ F). cbv zeta.
  assert (W : wf (dim_z om) (f_update FO (o_filter om) (flatten (d_absolute_points d))
       (repeat_each dim (map (fun m : bool => if m then n1 else n0) mask)))).
  { apply (rg_update _ R); auto; [apply (hr_dim _ _ _ _ _ F)|].
    unfold mask. rewrite repeat_each_length, map_length, (hr_mask_len _ _ _ _ _ F). reflexivity. }
  fold dim mask. apply (rg_set_x _ R (dim_z om)); auto. unfold reset_first_detected.
  rewrite app_length, mask_assign_length, mask_fill_length, firstn_length, skipn_length, (rg_x _ R _ _ W). unfold dim_z. lia.
Qed.

Lemma fits_new wf c h r p ct i (o : tobj) : regular FO wf -> new_rel c h r p ct i o ->
  (exists n d, rectangular n d (d_absolute_points (h r))) -> fits wf o.
Proof.
  intros R NR (n & d & RC). unfold fits, dim_z. rewrite (nr_conf _ _ _ _ _ _ _ NR), (nr_filter _ _ _ _ _ _ _ NR). cbn.
  replace (_ * _) with (length (flatten (d_absolute_points (h r)))); [apply (rg_create _ R)|].
  rewrite (flatten_length _ _ _ RC). destruct RC as [<- F]. destruct (d_absolute_points (h r)) as [|x l]; cbn; [lia|].
  inversion F; subst. lia.
Qed.

Lemma hit_resets wf (d : detection N) r p (om o1 : tobj) : regular FO wf -> fits wf om -> hit_rel d r p om o1 ->
  let n := oc_num_points (o_conf om) in
  let dim := oc_dim_points (o_conf om) in
  let thr := oc_det_thr (o_conf om) in
  rectangular n dim (d_absolute_points d) -> 0 < dim ->
  forall k, k < n -> nth_error (o_once om) k <> Some true ->
  nth_error (estimate_velocity o1) k = Some (repeat n0 dim) /\
  ((forall j, j < dim -> above thr d ((k * dim + j) mod n)) ->
   nth_error (absolute_estimate o1) k = nth_error (d_absolute_points d) k).
Proof.
  intros R H F n dim thr RC Hdim k Hk Hno.
  pose proof (hr_conf _ _ _ _ _ F) as C1. pose proof (hr_filter _ _ _ _ _ F) as FF.
  pose proof (hr_mask_len _ _ _ _ _ F) as ML. pose proof (hr_once_len _ _ _ _ _ F) as OL. pose proof (hr_dim _ _ _ _ _ F) as DL.
  unfold estimate_velocity. rewrite absolute_estimate_eq. unfold dim_z at 1 2. rewrite C1, (hit_x _ _ _ _ _ _ R H F). cbv zeta.
  fold n dim thr in ML, OL, RC |- *. set (mask := over_threshold thr n d) in *.
  set (f := f_update FO (o_filter om) (flatten (d_absolute_points d)) (repeat_each dim (map (fun m : bool => if m then n1 else n0) mask))).
  assert (W : wf (dim_z om) f).
  { apply (rg_update _ R); auto. rewrite repeat_each_length, map_length, ML. reflexivity. }
  pose proof (rg_x _ R _ _ W) as XL. unfold reset_first_detected.
  assert (DZ : dim_z om = dim * n) by reflexivity. fold dim n. rewrite DZ in *.
  set (pos := mask_assign _ _ _). set (vel := mask_fill _ _ _).
  assert (PL : length pos = dim * n) by (unfold pos; rewrite mask_assign_length, firstn_length; lia).
  assert (VL : length vel = dim * n) by (unfold vel; rewrite mask_fill_length, skipn_length; lia).
  rewrite firstn_app, skipn_app, PL, Nat.sub_diag, firstn_all2, skipn_all2 by lia. cbn [firstn skipn app]. rewrite app_nil_r.
  assert (Onc : nth_error (o_once om) k = Some false).
  { destruct (nth_error (o_once om) k) as [[]|] eqn:E; auto; [congruence|]. apply nth_error_None in E. lia. }
  assert (Div : forall j, j < dim -> (k * dim + j) / dim = k).
  { intros j Hj. rewrite Nat.div_add_l by lia. rewrite Nat.div_small by auto. lia. }
  assert (Bd : forall j, j < dim -> k * dim + j < dim * n) by (intros; nia).
  split.
  - rewrite reshape_nth by (auto; rewrite VL; nia). f_equal. apply nth_error_ext. intros j. rewrite nth_error_firstn.
    destruct (j <? dim) eqn:E.
    + apply Nat.ltb_lt in E. rewrite nth_error_repeat by auto. rewrite nth_error_skipn. unfold vel.
      rewrite mask_fill_nth by (rewrite map_length, repeat_each_length, skipn_length; lia).
      rewrite nth_error_map, nth_error_repeat_each, Div, Onc by auto. reflexivity.
    + apply Nat.ltb_ge in E. symmetry. apply nth_error_None. rewrite repeat_length. auto.
  - intros Hall. rewrite reshape_nth by (auto; rewrite PL; nia).
    destruct RC as [Rn Rd]. destruct (nth_error (d_absolute_points d) k) as [row|] eqn:Erow; [|apply nth_error_None in Erow; lia].
    assert (Lrow : length row = dim) by (rewrite Forall_forall in Rd; apply Rd; eapply nth_error_In; eauto).
    f_equal. apply nth_error_ext. intros j. rewrite nth_error_firstn. destruct (j <? dim) eqn:E.
    + apply Nat.ltb_lt in E. rewrite nth_error_skipn. unfold pos.
      rewrite mask_assign_nth by (rewrite ?first_mask_length, ?firstn_length; try lia; congruence).
      rewrite nth_error_first_mask by (rewrite ?ML; auto; congruence). rewrite ML, Div by auto.
      rewrite (nth_error_nth _ _ true Onc).
      replace (nth ((k * dim + j) mod n) mask false) with true.
      2:{ symmetry. apply over_nth; auto. apply Nat.mod_upper_bound. lia. }
      cbn. rewrite nth_error_flatten with (d := dim) by auto. rewrite Div, Erow by auto.
      f_equal. rewrite Nat.add_comm, Nat.mod_add by lia. apply Nat.mod_small. auto.
    + apply Nat.ltb_ge in E. symmetry. apply nth_error_None. lia.
Qed.

Lemma fits_history c (s : st) f0 fs i wf : regular FO wf -> rnd_ok (tc_rnd c) -> tracker_state c s ->
  tc_reid_distance c = None -> video c s (f0 :: fs) -> s_icount (f_pre f0) < i <= s_icount (f_post f0) ->
  (exists n d, rectangular n d (d_absolute_points (s_heap (f_post f0) (last_det (f_post f0) i)))) ->
  forall f, In f (f0 :: fs) -> tracked (f_post f) i -> fits wf (s_store (f_post f) i).
Proof.
  intros R Hr Ht Nr V Hi RC0 f Hf Hti. destruct (In_nth_error _ _ Hf) as [m Hm].
  apply (object_history c s f0 fs i (fun _ o => fits wf o) Hr Ht Nr V Hi) with (n := m); auto.
  - intros r Hr0 Er HA NR. eapply fits_new; eauto. subst r.
    destruct (same_age_scores _ _ (last_det (f_post f0) i) HA) as (_ & <- & _). exact RC0.
  - intros past g Hg Hp Hc P1 Hns U. eapply fits_step; eauto.
  - intros past g r dist om Hg Hp Hc P1 Hin Er HA U (o1 & F1 & F2).
    assert (Fm : fits wf om) by (eapply fits_step; eauto). rewrite F2. exact (fits_hit wf _ _ _ _ _ R Fm F1).
Qed.

(** C25: two continuations of one history. *)
Theorem ignored_points_history c (s : st) f0 fs f i wf h1 h2 g1 g2 dets1 dets2 p1 p2 ct s1' s2' out1 out2 :
  regular FO wf -> ignores_unmeasured FO wf -> rnd_ok (tc_rnd c) -> tracker_state c s -> tc_reid_distance c = None ->
  video c s (f0 :: fs) -> s_icount (f_pre f0) < i <= s_icount (f_post f0) ->
  (exists n d, rectangular n d (d_absolute_points (s_heap (f_post f0) (last_det (f_post f0) i)))) ->
  In f (f0 :: fs) -> tracked (f_post f) i -> s_gcount (f_post f) <= g1 -> s_gcount (f_post f) <= g2 ->
  let s0 := f_post f in
  update c (Some dets1) p1 ct (meanwhile s0 h1 g1) = (s1', Ret out1) ->
  update c (Some dets2) p2 ct (meanwhile s0 h2 g2) = (s2', Ret out2) ->
  ~ In (last_det s0 i) dets1 -> ~ In (last_det s0 i) dets2 -> In (last_det s1' i) dets1 -> In (last_det s2' i) dets2 ->
  let d1 := s_heap s1' (last_det s1' i) in
  let d2 := s_heap s2' (last_det s2' i) in
  let thr := tc_det_thr c in
  agree_above thr d1 d2 ->
  rectangular (num_points s0 i) (dim_points s0 i) (d_absolute_points d1) ->
  (forall k, k < dim_points s0 i * num_points s0 i -> above thr d1 (k mod num_points s0 i) ->
     detected_before s0 i (k / dim_points s0 i) \/ above thr d1 (k / dim_points s0 i)) ->
  (forall absolute, get_estimate (s_store s1' i) absolute = get_estimate (s_store s2' i) absolute) /\
  estimate_velocity (s_store s1' i) = estimate_velocity (s_store s2' i).
Proof.
  intros R Hig Hr Ht Nr V Hi RC Hf Hti G1 G2 s0 E1 E2 N1 N2 S1 S2 d1 d2 thr AA RC1 Leak.
  pose proof (fits_history c s f0 fs i wf R Hr Ht Nr V Hi RC f Hf Hti) as FT.
  assert (T0 : tracker_state c s0) by (apply (video_state laws c s (f0 :: fs) Hr Ht V f Hf)).
  eapply (ignored_points c (meanwhile s0 h1 g1) (meanwhile s0 h2 g2)); eauto; try (constructor; auto).
Qed.

Theorem first_detection c (s : st) f0 fs i wf : regular FO wf -> rnd_ok (tc_rnd c) -> tracker_state c s ->
  tc_reid_distance c = None -> video c s (f0 :: fs) -> s_icount (f_pre f0) < i <= s_icount (f_post f0) ->
  (exists n d, rectangular n d (d_absolute_points (s_heap (f_post f0) (last_det (f_post f0) i)))) ->
  forall f, In f fs -> tracked (f_post f) i -> seen f i -> fresh f i ->
  let d := s_heap (f_post f) (last_det (f_post f) i) in
  let n := num_points (f_pre f) i in
  let dim := dim_points (f_pre f) i in
  rectangular n dim (d_absolute_points d) -> 0 < dim ->
  forall k, k < n -> ~ detected_before (f_pre f) i k ->
  nth_error (estimate_velocity (s_store (f_post f) i)) k = Some (repeat n0 dim) /\
  ((forall j, j < dim -> above (tc_det_thr c) d ((k * dim + j) mod n)) ->
   nth_error (absolute_estimate (s_store (f_post f) i)) k = nth_error (d_absolute_points d) k).
Proof.
  intros R Hr Ht Nr V Hi RC0 f Hf Hti Sn Fr d n dim RC Hdim k Hk Hno.
  destruct (In_nth_error _ _ Hf) as [m Hm].
  pose (Q := fun (g : frame) => tracked (f_post g) i -> seen g i -> fresh g i ->
     let d := s_heap (f_post g) (last_det (f_post g) i) in
     let n := num_points (f_pre g) i in
     let dim := dim_points (f_pre g) i in
     rectangular n dim (d_absolute_points d) -> 0 < dim ->
     forall k, k < n -> ~ detected_before (f_pre g) i k ->
     nth_error (estimate_velocity (s_store (f_post g) i)) k = Some (repeat n0 dim) /\
     ((forall j, j < dim -> above (tc_det_thr c) d ((k * dim + j) mod n)) ->
      nth_error (absolute_estimate (s_store (f_post g) i)) k = nth_error (d_absolute_points d) k)).
  pose proof (object_history c s f0 fs i (fun past o => fits wf o /\ match rev past with g :: _ => past = [f0] \/ Q g | [] => True end) Hr Ht Nr V Hi) as OH.
  assert (X : fits wf (s_store (f_post f) i) /\ match rev (firstn (S (S m)) (f0 :: fs)) with g :: _ => firstn (S (S m)) (f0 :: fs) = [f0] \/ Q g | [] => True end).
  { apply OH; [| | |exact Hm|exact Hti].
    - intros r Hr0 Er HA NR. split; [|left; reflexivity]. eapply fits_new; eauto. subst r.
      destruct (same_age_scores _ _ (last_det (f_post f0) i) HA) as (_ & <- & _). exact RC0.
    - intros past g Hg Hp Hc [P1 _] Hns U. split; [eapply fits_step; eauto|]. rewrite rev_unit. right. intros A B C. exfalso. apply Hns. auto.
    - intros past g r dist om Hg Hp Hc [P1 _] Hin Er HA U (o1 & F1 & F2).
      assert (Fm : fits wf om) by (eapply fits_step; eauto).
      split; [rewrite F2; exact (fits_hit wf _ _ _ _ _ R Fm F1)|]. rewrite rev_unit. right. intros A B C d1 n1 dim1 RC1 Hd1 k1 Hk1 Hno1.
      destruct (same_age_scores _ _ r HA) as (U1 & U2 & _).
      assert (Cm : o_conf om = o_conf (s_store (f_pre g) i)) by (rewrite (um_conf _ _ U), st_conf; reflexivity).
      assert (Om : o_once om = o_once (s_store (f_pre g) i)) by (destruct U as [mm ->]; destruct (f_ct g); reflexivity).
      pose proof (hit_resets wf _ _ _ _ _ R Fm F1) as HR. cbv zeta in HR. rewrite Cm, Om in HR.
      subst d1. rewrite <- Er in RC1 |- *. rewrite U2 in RC1 |- *.
      destruct (HR RC1 Hd1 k1 Hk1 Hno1) as [HR1 HR2]. split.
      + rewrite F2. exact HR1.
      + intros Hall. rewrite F2. apply HR2. intros j Hj. rewrite (co_thr _ _ Hc).
        eapply above_scores; [symmetry; apply U1|]. apply (Hall j Hj). }
  assert (Z : firstn (S (S m)) (f0 :: fs) = (f0 :: firstn m fs) ++ [f]).
  { cbn. f_equal. clear -Hm. revert fs Hm. induction m as [|m IH]; intros [|g fs] H; try discriminate; cbn in *; [congruence|].
    f_equal. apply IH. exact H. }
  destruct X as [_ X]. rewrite Z, rev_unit in X. destruct X as [X|X].
  - exfalso. cbn in X. injection X as X. destruct (firstn m fs); discriminate.
  - exact (X Hti Sn Fr RC Hdim k Hk Hno).
Qed.

End PointProofs.

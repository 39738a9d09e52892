(** C111: two runs of a tracker with the coordinates in two orders. *)
From Coq Require Import ZArith Bool Arith String List Lia Permutation.
From Verif Require Import Model.Num Model.Base Model.Matching Model.Filter Model.Tracker Spec.CallSpec Spec.ExampleVideo Spec.PointSpec Spec.LabelSpec
  Spec.UnitSpec Spec.CoordSpec Proofs.TrackerFrame Proofs.UnitLists Proofs.CoordLists.
Import ListNotations.

Section Sim.
Context {N : Num} {FO : filter_ops N}.
Notation st := (st FO).
Notation tobj := (tobj FO).
Notation det := (detection N).
Notation ct := (option (coord_transformation N)).
Variables dim n : nat.
Hypothesis Hdim : 0 < dim.
Hypothesis Hn : 0 < n.
Variable order : list nat.
Hypothesis Ho : is_order dim n order.
Variable R : fstate FO -> fstate FO -> Prop.
Hypothesis HR : filter_in_order dim n order R.
Notation conv := (in_order dim order).
Notation cdet := (det_in_order dim order).
Notation cflat := (picks (@n0 N) order).
Notation cstate := (state_in_order dim n order).

(** Everything except the filter and abs_to_rel. *)
Definition fl0 : fstate FO := f_create FO [].
Definition erase (o : tobj) : tobj := set_filter fl0 (set_abs_to_rel None o).
Definition arel (a a' : option (points N -> points N)) : Prop :=
  match a, a' with
  | None, None => True
  | Some f, Some f' => forall p, sized dim n p -> sized dim n (f p) /\ f' (conv p) = conv (f p)
  | _, _ => False
  end.
Variable base : nat.
Record orel (o o' : tobj) : Prop := MkORel {
  or_core : erase o = erase o';
  or_dim : oc_dim_points (o_conf o) = dim;
  or_num : oc_num_points (o_conf o) = n;
  or_once : o_once o = repeat true n;
  or_filter : R (o_filter o) (o_filter o');
  or_abs : arel (o_abs_to_rel o) (o_abs_to_rel o')
}.
Definition known_in (s : st) (i : nat) : Prop := 1 <= i <= s_icount s.
Record sim (s s' : st) : Prop := MkSim {
  sm_heap : forall r, s_heap s' r = cdet (s_heap s r);
  sm_shaped : forall r, det_unscored dim n (s_heap s r);
  sm_obj : forall i, known_in s i -> orel (s_store s i) (s_store s' i);
  sm_tracked : s_tracked s = s_tracked s';
  sm_known : Forall (known_in s) (s_tracked s);
  sm_count : s_count s = s_count s';
  sm_icount : s_icount s = s_icount s';
  sm_gcount : s_gcount s = s_gcount s';
  sm_base : base <= s_icount s
}.
Definition agree {A} (x x' : st * result A) : Prop := snd x = snd x' /\ sim (fst x) (fst x').

Ltac core E := match type of E with erase ?a = erase ?b => destruct a, b; unfold erase in E; cbn in E; injection E; clear E; intros; subst end.
Lemma core_fields o o' : erase o = erase o' ->
  o_conf o = o_conf o' /\ o_hit o = o_hit o' /\ o_reid o = o_reid o' /\ o_last_det o = o_last_det o' /\ o_age o = o_age o' /\
  o_initializing o = o_initializing o' /\ o_id o = o_id o' /\ o_gid o = o_gid o' /\ o_once o = o_once o' /\ o_point_hits o = o_point_hits o' /\
  o_past o = o_past o' /\ o_last_distance o = o_last_distance o' /\ o_min_distance o = o_min_distance o'.
Proof. intros E. core E. cbn. repeat split. Qed.

(** ** Estimates *)
Lemma flat_conv (p : points N) : flatten (conv p) = cflat (flatten p).
Proof. apply (reshape_ok dim Hdim n). apply (picks_length _ _ Ho). Qed.
Lemma conv_shaped (p : points N) : sized dim n (conv p).
Proof. destruct (reshape_ok dim Hdim n (cflat (flatten p)) (picks_length _ _ Ho _ _)) as (A & _ & B). split; auto. Qed.
Lemma cflat_length (v : list N) : List.length (cflat v) = dim * n.
Proof. apply (picks_length _ _ Ho). Qed.
Lemma reshape_conv (v : list N) : List.length v = dim * n -> sized dim n (reshape_rows dim v) /\ reshape_rows dim (cflat v) = conv (reshape_rows dim v).
Proof.
  intros L. destruct (reshape_ok dim Hdim n v L) as (R1 & R2 & R3). split; [split; auto|]. unfold in_order. rewrite R2. reflexivity.
Qed.
Lemma state_parts (x : list N) : List.length x = 2 * (dim * n) -> firstn (dim * n) (cstate x) = cflat (firstn (dim * n) x) /\ skipn (dim * n) (cstate x) = cflat (skipn (dim * n) x).
Proof.
  clear Hdim Hn. intros L. unfold state_in_order. rewrite firstn_app, skipn_app, cflat_length, Nat.sub_diag. cbn [firstn skipn]. rewrite app_nil_r.
  rewrite firstn_all2, skipn_all2 by (rewrite cflat_length; lia). auto.
Qed.
Lemma dim_z_n o o' : orel o o' -> dim_z o = dim * n /\ dim_z o' = dim * n.
Proof. intros [A B C C1 D G]. assert (A1 : o_conf o = o_conf o') by (core A; reflexivity). unfold dim_z. rewrite <- A1, B, C. auto. Qed.
Lemma positions_conv o o' : orel o o' ->
  sized dim n (reshape_rows (oc_dim_points (o_conf o)) (firstn (dim_z o) (f_x FO (o_filter o)))) /\
  reshape_rows (oc_dim_points (o_conf o')) (firstn (dim_z o') (f_x FO (o_filter o'))) =
  conv (reshape_rows (oc_dim_points (o_conf o)) (firstn (dim_z o) (f_x FO (o_filter o)))).
Proof.
  intros H. destruct (dim_z_n _ _ H) as [Z Z']. destruct H as [A B C C1 D G]. assert (A1 : o_conf o = o_conf o') by (core A; reflexivity).
  destruct (fo_x _ _ _ _ HR _ _ D) as [X1 X2]. rewrite Z, Z', <- A1, B, X2. rewrite (proj1 (state_parts _ X1)). apply reshape_conv. rewrite firstn_length. lia.
Qed.
Lemma velocity_conv o o' : orel o o' -> estimate_velocity o' = conv (estimate_velocity o).
Proof.
  intros H. destruct (dim_z_n _ _ H) as [Z Z']. destruct H as [A B C C1 D G]. assert (A1 : o_conf o = o_conf o') by (core A; reflexivity).
  destruct (fo_x _ _ _ _ HR _ _ D) as [X1 X2]. unfold estimate_velocity. rewrite Z, Z', <- A1, B, X2. rewrite (proj2 (state_parts _ X1)). apply reshape_conv. rewrite skipn_length. lia.
Qed.
Lemma estimate_conv o o' : orel o o' -> sized dim n (estimate o) /\ estimate o' = conv (estimate o) /\ get_estimate o' true = result_map conv (get_estimate o true).
Proof.
  intros H. destruct (positions_conv o o' H) as [P1 P2]. pose proof (or_abs _ _ H) as G. unfold estimate, get_estimate, arel in *. rewrite P2.
  destruct (o_abs_to_rel o) as [f|], (o_abs_to_rel o') as [f'|]; try contradiction; cbn; auto. destruct (G _ P1) as [G1 G2]. auto.
Qed.
Lemma orel_order o o' : orel o o' -> obj_in_order dim n order o o'.
Proof.
  intros H. destruct (core_fields _ _ (or_core _ _ H)) as (A1 & A2 & A3 & A4 & A5 & A6 & A7 & A8 & A9 & A10 & A11 & A12 & A13). destruct (estimate_conv o o' H) as (E1 & E2 & E3).
  split; try congruence; auto. apply velocity_conv, H.
Qed.

(** ** Primitive changes *)
Lemma sim_obj i f f' s s' : sim s s' -> (orel (s_store s i) (s_store s' i) -> orel (f (s_store s i)) (f' (s_store s' i))) ->
  sim (mod_obj i f s) (mod_obj i f' s').
Proof. intros [A B C D E F G H HB] K. split; cbn; auto. intros j Hj. unfold upd. destruct (Nat.eqb_spec j i) as [->|Hne]; auto. Qed.
Lemma sim_det r f f' s s' : sim s s' -> f' (cdet (s_heap s r)) = cdet (f (s_heap s r)) -> det_unscored dim n (f (s_heap s r)) -> sim (mod_det r f s) (mod_det r f' s').
Proof.
  intros [A B C D E F G H HB] K L. split; cbn; auto; intros q; unfold upd; destruct (Nat.eqb_spec q r) as [->|Hne]; auto. rewrite A, K. reflexivity.
Qed.
Lemma sim_age r a s s' : sim s s' -> sim (mod_det r (d_set_age a) s) (mod_det r (d_set_age a) s').
Proof. intros H. apply sim_det; auto. exact (sm_shaped _ _ H r). Qed.
Lemma sim_tracked l s s' : sim s s' -> Forall (known_in s) l -> sim (s_set_tracked l s) (s_set_tracked l s').
Proof. intros [A B C D E F G H HB] K. split; cbn; auto. Qed.
(** The same change of both objects, of the parts that are equal. *)
Definition plain (f : tobj -> tobj) : Prop := forall o o', erase o = erase o' ->
  erase (f o) = erase (f o') /\ forall o, o_conf (f o) = o_conf o /\ o_filter (f o) = o_filter o /\
  o_abs_to_rel (f o) = o_abs_to_rel o /\ (o_once o = repeat true n -> o_once (f o) = repeat true n).
Lemma plain_rel f o o' : plain f -> orel o o' -> orel (f o) (f o').
Proof.
  intros P [A B C C1 D G]. destruct (P o o' A) as (E1 & E2). destruct (E2 o) as (X1 & X2 & X3 & X4). destruct (E2 o') as (Y1 & Y2 & Y3 & Y4).
  split; auto; rewrite ?X1, ?X2, ?X3, ?Y2, ?Y3; auto.
Qed.
Lemma sim_plain i f s s' : plain f -> sim s s' -> sim (mod_obj i f s) (mod_obj i f s').
Proof. intros P S. apply sim_obj; auto. apply plain_rel, P. Qed.
Lemma plain_hit f : (forall o o' : tobj, erase o = erase o' -> f o = f o') -> plain (fun o : tobj => set_hit (f o) o).
Proof. intros F o o' E. rewrite (F o o' E). core E. repeat split; auto. Qed.
Lemma plain_init b : plain (set_initializing b).
Proof. intros o o' E. core E. repeat split; auto. Qed.
Lemma plain_ph f : (forall o o' : tobj, erase o = erase o' -> f o = f o') -> plain (fun o : tobj => set_point_hits (f o) o).
Proof. intros F o o' E. rewrite (F o o' E). core E. repeat split; auto. Qed.
Lemma plain_once : plain (fun o : tobj => set_once (map2 orb (o_once o) (repeat true n)) o).
Proof.
  intros o o' E. split; [core E; reflexivity|]. intros o1. repeat split. cbn. intros ->. clear. unfold map2. induction n; cbn; congruence.
Qed.
Lemma plain_min v : plain (set_min_distance v).
Proof. intros o o' E. core E. repeat split; auto. Qed.
Lemma plain_dist v : plain (set_last_distance v).
Proof. intros o o' E. core E. repeat split; auto. Qed.
Lemma plain_last r : plain (set_last_det r).
Proof. intros o o' E. core E. repeat split; auto. Qed.
Lemma plain_past f : (forall o o' : tobj, erase o = erase o' -> f o = f o') -> plain (fun o : tobj => set_past (f o) o).
Proof. intros F o o' E. rewrite (F o o' E). core E. repeat split; auto. Qed.
Lemma sim_ids i s s' : known_in s i -> sim s s' -> sim (acquire_ids i s) (acquire_ids i s').
Proof.
  intros Hi [A B C D E F G H HB]. unfold acquire_ids. split; cbn; auto.
  intros j Hj. unfold upd. destruct (Nat.eqb_spec j i) as [->|Hne]; auto. destruct (C i Hi) as [A' B' C' C1' D' G'].
  split; cbn; auto. rewrite F, H. clear -A'. core A'. reflexivity.
Qed.
Lemma orel_filter f f' o o' : orel o o' -> R f f' -> orel (set_filter f o) (set_filter f' o').
Proof. intros [A B C C1 D G] H. split; cbn; auto. all: (clear -A; core A; reflexivity). Qed.
Lemma orel_step o o' : orel o o' -> orel (tracker_step o) (tracker_step o').
Proof.
  intros H. unfold tracker_step. set (o1 := set_oage _ _). set (o1' := set_oage (o_age (set_point_hits _ (set_hit _ (set_reid _ o'))) + 1)%Z _).
  assert (H1 : orel o1 o1').
  { destruct H as [A B C C1 D G]. split; auto. clear -A. unfold o1, o1'. core A. reflexivity. }
  apply orel_filter; auto. exact (fo_predict _ _ _ _ HR _ _ (or_filter _ _ H1)).
Qed.
Lemma orel_ct T T' o o' : ct_in_order dim n order T T' -> orel o o' -> orel (obj_update_ct T o) (obj_update_ct T' o').
Proof.
  intros HT [A B C C1 D G]. destruct T as [T|], T' as [T'|]; cbn in HT; try contradiction; [|split; auto]. split; cbn; auto.
  all: try (clear -A; core A; reflexivity).
  intros p Hp. destruct (HT p Hp) as (_ & _ & X & Y). auto.
Qed.

(** ** Methods of objects *)
Lemma agree_ret {A} (a : A) s s' : sim s s' -> agree (s, Ret a) (s', Ret a).
Proof. intros S. split; auto. Qed.
Lemma agree_raise {A} e s s' : sim s s' -> agree (A:=A) (s, Raise e) (s', Raise e).
Proof. intros S. split; auto. Qed.
Lemma sim_core i s s' : known_in s i -> sim s s' -> erase (s_store s i) = erase (s_store s' i).
Proof. intros Hi S. exact (or_core _ _ (sm_obj _ _ S i Hi)). Qed.

Lemma sim_cond_add i r s s' : known_in s i -> sim s s' -> agree (cond_add_past i r s) (cond_add_past i r s').
Proof.
  intros Hi S. unfold cond_add_past. destruct (core_fields _ _ (sim_core i s s' Hi S)) as (E1 & _ & _ & _ & E5 & _ & _ & _ & _ & _ & E11 & _).
  rewrite <- E1, <- E11, <- E5. destruct (Nat.eqb _ 0); [apply agree_ret, S|]. destruct (Nat.ltb _ _).
  - apply agree_ret. apply sim_plain; [apply plain_past; intros o o' E; core E; reflexivity|]. apply sim_age, S.
  - destruct (o_past (s_store s i)) as [|first rest] eqn:Ep; [apply agree_raise, S|]. rewrite (sm_heap _ _ S first). cbn [d_age det_in_order].
    destruct (d_age _); [|apply agree_raise, S]. destruct (Z.leb _ _); [|apply agree_ret, S].
    apply agree_ret. apply sim_plain; [apply (plain_past (fun _ => rest ++ [r])); reflexivity|]. apply sim_age, S.
Qed.

Lemma repeat_each_repeat {A} k m (a : A) : repeat_each k (repeat a m) = repeat a (k * m).
Proof.
  unfold repeat_each. induction m as [|m IH]; cbn; [rewrite Nat.mul_0_r; reflexivity|]. rewrite IH, <- repeat_app. f_equal. lia.
Qed.
Lemma map_repeat' {A B} (f : A -> B) a m : map f (repeat a m) = repeat (f a) m.
Proof. induction m; cbn; congruence. Qed.
Lemma assign_none {A} : forall mask (src dst : list A), forallb negb mask = true -> mask_assign mask src dst = dst.
Proof. induction mask as [|[] mask IH]; intros [|s src] [|d dst] H; cbn in *; try discriminate; auto. f_equal. auto. Qed.
Lemma fill_none {A} (v : A) : forall mask (dst : list A), forallb negb mask = true -> mask_fill mask v dst = dst.
Proof. induction mask as [|[] mask IH]; intros [|d dst] H; cbn in *; try discriminate; auto. f_equal. auto. Qed.
Lemma and_none a : forall b, forallb negb b = true -> forallb negb (map2 andb a b) = true.
Proof. unfold map2. induction a as [|x a IH]; intros [|[] b] H; cbn in *; try discriminate; auto. rewrite andb_false_r. cbn. auto. Qed.
(** All points have been seen. *)
Lemma reset_none d now (z x : list N) : reset_first_detected dim d now (repeat true n) z x = x.
Proof.
  assert (E : forallb negb (map negb (repeat_each dim (repeat true n))) = true).
  { rewrite repeat_each_repeat, map_repeat'. generalize (dim * n). induction n0; cbn; auto. }
  unfold reset_first_detected. rewrite fill_none by exact E. rewrite assign_none by (apply and_none, E). apply firstn_skipn.
Qed.

Lemma sim_hit i r p s s' : known_in s i -> sim s s' -> agree (hit i r p s) (hit i r p s').
Proof.
  intros Hi S. pose proof (sim_cond_add i r s s' Hi S) as [E S']. unfold hit.
  assert (Hi' : known_in (fst (cond_add_past i r s)) i).
  { unfold cond_add_past. destruct (Nat.eqb _ 0); auto. destruct (Nat.ltb _ _); auto. destruct (o_past _); auto. destruct (d_age _); auto. destruct (Z.leb _ _); auto. }
  destruct (cond_add_past i r s) as [t1 [u1|e1]], (cond_add_past i r s') as [t2 [u2|e2]]; cbn [fst snd] in E, S', Hi'; try discriminate.
  2: { injection E as ->. apply agree_raise, S'. }
  clear E S Hi s s' u1 u2. rename t1 into s1, t2 into s2, S' into S, Hi' into Hi.
  assert (S1 := sim_plain i (set_last_det r) s1 s2 (plain_last r) S). assert (Hi1 : known_in (mod_obj i (set_last_det r) s1) i) by exact Hi.
  set (a1 := mod_obj i (set_last_det r) s1) in *. set (a2 := mod_obj i (set_last_det r) s2) in *. clearbody a1 a2. clear S Hi s1 s2.
  assert (S2 : sim (mod_obj i (fun o => set_hit (Z.min (o_hit o + 2 * p) (oc_hit_counter_max (o_conf o))) o) a1)
                   (mod_obj i (fun o => set_hit (Z.min (o_hit o + 2 * p) (oc_hit_counter_max (o_conf o))) o) a2)).
  { apply sim_plain; auto. apply plain_hit. intros o o' E. core E. reflexivity. }
  assert (Hk : known_in (mod_obj i (fun o => set_hit (Z.min (o_hit o + 2 * p) (oc_hit_counter_max (o_conf o))) o) a1) i) by exact Hi1.
  set (b1 := mod_obj i _ a1) in *. set (b2 := mod_obj i _ a2) in *. clearbody b1 b2. clear S1 Hi1 a1 a2.
  destruct (core_fields _ _ (sim_core i b1 b2 Hk S2)) as (E1 & E2 & _ & _ & _ & E6 & _).
  rewrite <- E1, <- E2, <- E6.
  set (cnd := (o_initializing (s_store b1 i) && (oc_delay (o_conf (s_store b1 i)) <? o_hit (s_store b1 i))%Z)%bool).
  assert (S3 : sim (if cnd then acquire_ids i (mod_obj i (set_initializing false) b1) else b1)
                   (if cnd then acquire_ids i (mod_obj i (set_initializing false) b2) else b2)).
  { destruct cnd; auto. apply sim_ids; [exact Hk|]. apply sim_plain; auto. apply plain_init. }
  assert (Hc : known_in (if cnd then acquire_ids i (mod_obj i (set_initializing false) b1) else b1) i) by (destruct cnd; exact Hk).
  set (c1 := if cnd then acquire_ids i (mod_obj i (set_initializing false) b1) else b1) in *.
  set (c2 := if cnd then acquire_ids i (mod_obj i (set_initializing false) b2) else b2) in *.
  clearbody c1 c2. clear S2 E1 E2 E6 Hk cnd b1 b2. pose proof (sm_obj _ _ S3 i Hc) as OR.
  destruct (core_fields _ _ (or_core _ _ OR)) as (E1 & _ & _ & _ & _ & _ & _ & _ & E9 & E10 & _).
  assert (Ed : dim_z (s_store c1 i) = dim_z (s_store c2 i)) by (unfold dim_z; rewrite E1; reflexivity).
  rewrite (sm_heap _ _ S3 r). destruct (sm_shaped _ _ S3 r) as (_ & Sh & Hs).
  assert (Eo : forall thr m d, d_scores d = None -> over_threshold (N := N) thr m d = repeat true m) by (intros thr m d E; unfold over_threshold; rewrite E; reflexivity).
  rewrite !Eo by exact Hs. cbn [d_scores d_absolute_points det_in_order]. rewrite Hs. destruct (dim_z_n _ _ OR) as [Dz1 Dz2].
  rewrite <- E1, <- E9, <- E10, (or_num _ _ OR), (or_dim _ _ OR), (or_once _ _ OR), Dz1, Dz2, flat_conv, cflat_length.
  set (counted := repeat true (List.length (o_point_hits _))).
  set (z := flatten (d_absolute_points (s_heap c1 r))).
  assert (Lz : List.length z = dim * n) by (destruct Sh as [L1 L2]; unfold z; rewrite (rows_length dim Hdim _ L2), L1; reflexivity).
  destruct (negb (Nat.eqb (List.length counted) _)); [apply agree_raise, S3|].
  assert (S4 : sim (mod_obj i (fun o => set_point_hits (point_hits_update p (oc_pointwise_max (o_conf o)) counted (o_point_hits o)) o) c1)
                   (mod_obj i (fun o => set_point_hits (point_hits_update p (oc_pointwise_max (o_conf o)) counted (o_point_hits o)) o) c2)).
  { apply sim_plain; auto. apply plain_ph. intros o o' E. core E. reflexivity. }
  assert (Hx : known_in (mod_obj i (fun o => set_point_hits (point_hits_update p (oc_pointwise_max (o_conf o)) counted (o_point_hits o)) o) c1) i) by exact Hc.
  set (x1 := mod_obj i _ c1) in *. set (x2 := mod_obj i _ c2) in *. clearbody x1 x2.
  rewrite Lz, repeat_length, !Nat.eqb_refl. cbn [negb orb]. rewrite map_repeat', repeat_each_repeat.
  assert (S5 : sim (mod_obj i (fun o => set_filter (f_update FO (o_filter o) z (repeat n1 (dim * n))) o) x1)
                   (mod_obj i (fun o => set_filter (f_update FO (o_filter o) (cflat z) (repeat n1 (dim * n))) o) x2)).
  { apply sim_obj; auto. intros H. apply orel_filter; auto. apply (fo_update _ _ _ _ HR _ _ z (or_filter _ _ H) Lz). }
  assert (Hy : known_in (mod_obj i (fun o => set_filter (f_update FO (o_filter o) z (repeat n1 (dim * n))) o) x1) i) by exact Hx.
  set (y1 := mod_obj i _ x1) in *. set (y2 := mod_obj i _ x2) in *. clearbody y1 y2.
  apply agree_ret. apply sim_plain; [apply plain_once|].
  apply sim_obj; auto. intros H. apply orel_filter; auto.
  destruct (fo_x _ _ _ _ HR _ _ (or_filter _ _ H)) as [X1 X2]. destruct (core_fields _ _ (or_core _ _ H)) as (_ & _ & _ & _ & _ & _ & _ & _ & E9' & _).
  rewrite <- E9', (or_once _ _ H), !reset_none, X2. apply (fo_set_x _ _ _ _ HR _ _ _ (or_filter _ _ H) X1).
Qed.
Definition act (i : nat) : Prop := 1 <= i <= base.
Lemma act_known s s' i : sim s s' -> act i -> known_in s i.
Proof. clear Hdim Hn. intros S [A B]. pose proof (sm_base _ _ S). split; lia. Qed.

(** [merge] *)
Lemma sim_add_pasts i rs : forall s s', act i -> sim s s' -> agree (add_pasts i rs s) (add_pasts i rs s').
Proof.
  induction rs as [|r rs IH]; intros s s' Hi S; [apply agree_ret, S|]. cbn [add_pasts].
  pose proof (sim_cond_add i r s s' (act_known _ _ _ S Hi) S) as [E S'].
  destruct (cond_add_past i r s) as [t1 [u1|e1]], (cond_add_past i r s') as [t2 [u2|e2]]; cbn [fst snd] in E, S'; try discriminate; auto.
  injection E as ->. apply agree_raise, S'.
Qed.
Lemma sim_merge i j s s' : act i -> act j -> sim s s' -> agree (merge i j s) (merge i j s').
Proof.
  intros Hi Hj S. unfold merge. pose proof (sm_obj _ _ S j (act_known _ _ _ S Hj)) as OJ.
  destruct (core_fields _ _ (or_core _ _ OJ)) as (E1 & _ & _ & _ & _ & _ & _ & _ & _ & _ & E11 & _). rewrite <- E11.
  apply sim_add_pasts; auto. apply sim_obj; auto. intros [A B C C1 D G]. destruct OJ as [A' B' C' C1' D' G'].
  set (c1 := s_store s j) in *. set (c2 := s_store s' j) in *. set (o1 := s_store s i) in *. set (o2 := s_store s' i) in *.
  clearbody c1 c2 o1 o2. split; cbn; auto. clear -A A'. core A. core A'. reflexivity.
Qed.

(** ** Distances *)
Definition cand_ok (c : cand) : Prop := match c with CDet r => True | CObj i => act i end.
Lemma view_obj_order s s' i : sim s s' -> act i -> view_in_order dim n order (view_obj s i) (view_obj s' i).
Proof.
  intros S Hi. pose proof (sm_obj _ _ S i (act_known _ _ _ S Hi)) as O. destruct (core_fields _ _ (or_core _ _ O)) as (_ & _ & _ & E4 & _ & _ & _ & _ & _ & _ & E11 & _).
  split; cbn [v_obj v_last v_past view_obj].
  - apply orel_order, O.
  - rewrite <- E4. apply (sm_heap _ _ S).
  - rewrite <- E11. rewrite map_map. apply map_ext. intros r. apply (sm_heap _ _ S).
  - split; [apply (sm_shaped _ _ S)|]. rewrite Forall_map. apply Forall_forall. intros r _. apply (sm_shaped _ _ S).
Qed.
Lemma view_cand_order s s' c : sim s s' -> cand_ok c -> cand_in_order dim n order (view_cand s c) (view_cand s' c).
Proof. intros S Hc. destruct c as [r|j]; cbn; [split; [apply (sm_heap _ _ S)|apply (sm_shaped _ _ S)]|apply view_obj_order; auto]. Qed.
Lemma obj_label_same s s' i : sim s s' -> act i -> obj_label s' i = obj_label s i.
Proof.
  intros S Hi. unfold obj_label. destruct (core_fields _ _ (or_core _ _ (sm_obj _ _ S i (act_known _ _ _ S Hi)))) as (E & _). rewrite E. reflexivity.
Qed.
Lemma cand_label_same s s' c : sim s s' -> cand_ok c -> cand_label s' c = cand_label s c.
Proof. intros S Hc. destruct c as [r|j]; cbn; [rewrite (sm_heap _ _ S); reflexivity|]. apply (obj_label_same s s' j S Hc). Qed.
Lemma map_result_ext {A B} (f f' : A -> result B) l : (forall x, In x l -> f' x = f x) -> map_result f' l = map_result f l.
Proof.
  induction l as [|a l IH]; intros H; cbn; auto. rewrite (H a (or_introl eq_refl)). destruct (f a); cbn; auto.
  rewrite IH by (intros x Hx; apply H; right; exact Hx). reflexivity.
Qed.
Section Phase.
Variable rnd : dval N -> dval N.
Lemma scalar_order f f' s s' objects cands : scalar_in_order dim n order f f' -> sim s s' -> Forall act objects -> Forall cand_ok cands ->
  scalar_distances rnd f' s' objects cands = scalar_distances rnd f s objects cands.
Proof.
  intros Hf S Fo Fc. rewrite Forall_forall in Fo, Fc. unfold scalar_distances. apply map_result_ext. intros c Hc. apply map_result_ext. intros i Hi.
  rewrite (cand_label_same s s' c S (Fc c Hc)), (obj_label_same s s' i S (Fo i Hi)). destruct (negb _); cbn; auto.
  rewrite (Hf _ _ _ _ (view_cand_order s s' c S (Fc c Hc)) (view_obj_order s s' i S (Fo i Hi))). reflexivity.
Qed.
Lemma stack_conv (ps : list (points N)) : Forall (sized dim n) ps -> stack (map (fun p => flatten (conv p)) ps) = result_map (fun _ => map (fun p => flatten (conv p)) ps) (stack (map flatten ps)).
Proof.
  intros F. assert (L : forall p : points N, sized dim n p -> List.length (flatten (conv p)) = List.length (flatten p)).
  { intros q [L1 L2]. rewrite flat_conv, cflat_length, (rows_length dim Hdim _ L2), L1. reflexivity. }
  destruct ps as [|p ps]; [reflexivity|]. unfold stack. cbn [map]. assert (Hp : sized dim n p) by (inversion F; auto).
  change (flatten p :: map flatten ps) with (map flatten (p :: ps)). change (flatten (conv p) :: map (fun p => flatten (conv p)) ps) with (map (fun p => flatten (conv p)) (p :: ps)).
  rewrite (L p Hp).
  assert (E : forallb (fun w : list N => Nat.eqb (List.length w) (List.length (flatten p))) (map (fun p => flatten (conv p)) (p :: ps)) =
              forallb (fun w : list N => Nat.eqb (List.length w) (List.length (flatten p))) (map flatten (p :: ps))).
  { generalize (List.length (flatten p)). intros m. induction F as [|q l Hq _ IH]; [reflexivity|]. cbn [map forallb]. rewrite IH, (L q Hq). reflexivity. }
  rewrite E. destruct (forallb _ (map flatten (p :: ps))); reflexivity.
Qed.
Lemma stack_ret l l' : @stack N l = Ret l' -> l' = l.
Proof. unfold stack. destruct l; [discriminate|]. destruct (forallb _ _); [|discriminate]. intros E. injection E as <-. reflexivity. Qed.
Definition cand_points (s : st) (c : cand) : points N := match c with CDet r => d_points (s_heap s r) | CObj i => estimate (s_store s i) end.
Lemma cand_points_order s s' c : sim s s' -> cand_ok c -> sized dim n (cand_points s c) /\ cand_points s' c = conv (cand_points s c).
Proof.
  intros S Hc. destruct c as [r|j]; cbn.
  - rewrite (sm_heap _ _ S). split; [apply (sm_shaped _ _ S)|reflexivity].
  - destruct (estimate_conv _ _ (sm_obj _ _ S j (act_known _ _ _ S Hc))) as (A & B & _). auto.
Qed.
Lemma cand_vector_points (s : st) c : cand_vector s c = flatten (cand_points s c).
Proof. destruct c; reflexivity. Qed.
Lemma vector_loop_order f f' s s' objects cands : vector_in_order dim n order f f' -> sim s s' -> Forall act objects -> Forall cand_ok cands ->
  forall labels M, vectorized_loop rnd f' s' objects cands labels M = vectorized_loop rnd f s objects cands labels M.
Proof.
  intros Hf S Fo Fc. rewrite Forall_forall in Fo, Fc. induction labels as [|l labels IH]; intros M; cbn [vectorized_loop]; [reflexivity|].
  assert (E1 : map (fun i => String.eqb (label_str (obj_label s' i)) l) objects = map (fun i => String.eqb (label_str (obj_label s i)) l) objects).
  { apply map_ext_in. intros i Hi. rewrite (obj_label_same s s' i S (Fo i Hi)). reflexivity. }
  assert (E2 : map (fun c => String.eqb (label_str (cand_label s' c)) l) cands = map (fun c => String.eqb (label_str (cand_label s c)) l) cands).
  { apply map_ext_in. intros i Hi. rewrite (cand_label_same s s' i S (Fc i Hi)). reflexivity. }
  assert (E3 : filter (fun i => String.eqb (label_str (obj_label s' i)) l) objects = filter (fun i => String.eqb (label_str (obj_label s i)) l) objects).
  { apply filter_ext_in. intros i Hi. rewrite (obj_label_same s s' i S (Fo i Hi)). reflexivity. }
  assert (E4 : filter (fun c => String.eqb (label_str (cand_label s' c)) l) cands = filter (fun c => String.eqb (label_str (cand_label s c)) l) cands).
  { apply filter_ext_in. intros i Hi. rewrite (cand_label_same s s' i S (Fc i Hi)). reflexivity. }
  rewrite E1, E2, E3, E4. set (objs := filter _ objects). set (cs := filter _ cands).
  assert (Fo' : forall i, In i objs -> act i) by (intros i Hi; apply filter_In in Hi; apply Fo, Hi).
  assert (Fc' : forall c, In c cs -> cand_ok c) by (intros i Hi; apply filter_In in Hi; apply Fc, Hi). clearbody objs cs.
  set (ps := map (cand_points s) cs). set (qs := map (fun i => estimate (s_store s i)) objs).
  assert (Hp : Forall (sized dim n) ps) by (unfold ps; rewrite Forall_map; apply Forall_forall; intros c Hc; apply (cand_points_order s s' c S (Fc' c Hc))).
  assert (Hq : Forall (sized dim n) qs) by (unfold qs; rewrite Forall_map; apply Forall_forall; intros i Hi; apply (cand_points_order s s' (CObj i) S (Fo' i Hi))).
  assert (P : map (cand_vector s) cs = map flatten ps) by (unfold ps; rewrite map_map; apply map_ext; intros; apply cand_vector_points).
  assert (Q : map (fun i => flatten (estimate (s_store s i))) objs = map flatten qs) by (unfold qs; rewrite map_map; reflexivity).
  assert (P' : map (cand_vector s') cs = map (fun p => flatten (conv p)) ps).
  { unfold ps. rewrite map_map. apply map_ext_in. intros c Hc. rewrite cand_vector_points. destruct (cand_points_order s s' c S (Fc' c Hc)) as [_ E]. rewrite E. reflexivity. }
  assert (Q' : map (fun i => flatten (estimate (s_store s' i))) objs = map (fun p => flatten (conv p)) qs).
  { unfold qs. rewrite map_map. apply map_ext_in. intros i Hi. destruct (cand_points_order s s' (CObj i) S (Fo' i Hi)) as [_ E]. cbn in E. rewrite E. reflexivity. }
  rewrite P, P', Q, Q', (stack_conv qs Hq), (stack_conv ps Hp). destruct (stack (map flatten qs)) as [so|e] eqn:Eo; cbn [result_map]; [|reflexivity].
  destruct (stack (map flatten ps)) as [sc|e] eqn:Ec; cbn [result_map]; [|reflexivity]. apply stack_ret in Eo, Ec. subst so sc.
  rewrite (Hf ps qs Hp Hq). destruct (f (map flatten ps) (map flatten qs)) as [D|e]; [|reflexivity].
  destruct (_ && _)%bool; [|reflexivity]. apply IH.
Qed.
Definition distance_order (d d' : distance FO) : Prop :=
  match d, d' with
  | ScalarDistance f, ScalarDistance f' => scalar_in_order dim n order f f'
  | VectorizedDistance f, VectorizedDistance f' => vector_in_order dim n order f f'
  | _, _ => False
  end.
Lemma distances_order d d' s s' objects cands : distance_order d d' -> sim s s' -> Forall act objects -> Forall cand_ok cands ->
  get_distances rnd d' s' objects cands = get_distances rnd d s objects cands.
Proof.
  intros Hd S Fo Fc. destruct d as [f|f], d' as [f'|f']; cbn in *; try contradiction; [apply scalar_order; auto|]. unfold vectorized_distances.
  assert (E1 : map (fun i => label_str (obj_label s' i)) objects = map (fun i => label_str (obj_label s i)) objects).
  { apply map_ext_in. intros i Hi. rewrite Forall_forall in Fo. rewrite (obj_label_same s s' i S (Fo i Hi)). reflexivity. }
  assert (E2 : map (fun c => label_str (cand_label s' c)) cands = map (fun c => label_str (cand_label s c)) cands).
  { apply map_ext_in. intros i Hi. rewrite Forall_forall in Fc. rewrite (cand_label_same s s' i S (Fc i Hi)). reflexivity. }
  rewrite E1, E2. destruct objects as [|o objects]; [reflexivity|]. destruct cands as [|c cands]; [reflexivity|]. apply vector_loop_order; auto.
Qed.

(** ** The association *)
Variable thr : dval N.
Lemma sim_min M objects : forall j s s', sim s s' -> sim (set_min_distances thr M j objects s) (set_min_distances thr M j objects s').
Proof. induction objects as [|i objects IH]; intros j s s' S; cbn; auto. apply IH. apply sim_plain; auto. apply plain_min. Qed.
Lemma remove_first_Forall (P : nat -> Prop) x l : Forall P l -> Forall P (remove_first x l).
Proof. induction 1; cbn; auto. destruct (Nat.eqb _ _); auto. Qed.
Lemma sim_matches M objects cands p pairs : Forall act objects -> Forall cand_ok cands ->
  forall uc mo uo s s', sim s s' -> agree (apply_matches thr M objects cands p pairs uc mo uo s) (apply_matches thr M objects cands p pairs uc mo uo s').
Proof.
  intros Fo Fc. rewrite Forall_forall in Fo, Fc. induction pairs as [|[ci oi] pairs IH]; intros uc mo uo s s' S; [apply agree_ret, S|].
  cbn [apply_matches]. destruct (nth_error cands ci) as [c|] eqn:Ec; [|apply agree_raise, S].
  destruct (nth_error objects oi) as [i|] eqn:Ei; [|apply agree_raise, S]. apply nth_error_In in Ec, Ei. apply Fc in Ec. apply Fo in Ei.
  destruct (dltb _ thr) eqn:El; [|apply IH; auto]. destruct c as [r|j]; cbn in Ec.
  - pose proof (sim_hit i r p s s' (act_known _ _ _ S Ei) S) as [E S'].
    destruct (hit i r p s) as [t1 [u1|e1]], (hit i r p s') as [t2 [u2|e2]]; cbn [fst snd] in E, S'; try discriminate.
    + apply IH. apply sim_plain; auto. apply plain_dist.
    + injection E as ->. apply agree_raise, S'.
  - pose proof (sim_merge i j s s' Ei Ec S) as [E S'].
    destruct (merge i j s) as [t1 [u1|e1]], (merge i j s') as [t2 [u2|e2]]; cbn [fst snd] in E, S'; try discriminate.
    + rewrite <- (sm_tracked _ _ S'). destruct (existsb _ _); [|apply agree_raise, S'].
      apply IH. apply sim_tracked; auto; apply remove_first_Forall, (sm_known _ _ S').
    + injection E as ->. apply agree_raise, S'.
Qed.
Lemma sim_phase d d' objects cands p s s' : distance_order d d' -> Forall act objects -> Forall cand_ok cands -> sim s s' ->
  agree (update_objects_in_place rnd d thr objects cands p s) (update_objects_in_place rnd d' thr objects cands p s').
Proof.
  intros Hd Fo Fc S. unfold update_objects_in_place. destruct cands as [|c0 cands0]; [apply agree_ret, S|].
  set (cands := c0 :: cands0) in *. clearbody cands. rewrite (distances_order d d' s s' objects cands Hd S Fo Fc).
  destruct (get_distances rnd d s objects cands) as [M|e]; [|apply agree_raise, S].
  destruct (existsb dis_nan (List.concat M)) eqn:En; [apply agree_raise, S|].
  assert (S' : sim (if existsb dtruth (List.concat M) then set_min_distances thr M 0 objects s else s)
                   (if existsb dtruth (List.concat M) then set_min_distances thr M 0 objects s' else s'))
    by (destruct (existsb dtruth _); auto; apply sim_min, S).
  set (t1 := if existsb dtruth (List.concat M) then _ else s) in *. set (t2 := if existsb dtruth (List.concat M) then _ else s') in *.
  clearbody t1 t2. destruct (match_dets_and_objs rnd thr M) as [[cis ois]|]; [|apply agree_raise, S'].
  destruct cis; [apply agree_ret, S'|]. apply sim_matches; auto.
Qed.
End Phase.
End Sim.

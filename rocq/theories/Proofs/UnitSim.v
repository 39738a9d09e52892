(** C93: two runs of a tracker in two coordinate systems. *)
From Coq Require Import ZArith Bool Arith String List Lia.
From Verif Require Import Model.Num Model.Base Model.Matching Model.Filter Model.Tracker Spec.CallSpec Spec.ExampleVideo Spec.PointSpec Spec.LabelSpec
  Spec.UnitSpec Proofs.NumLaws Proofs.TrackerFrame Proofs.UnitLists.
Import ListNotations.

Section Sim.
Context {N : Num} (laws : NumLaws N) (rg : ring_num N) {FO : filter_ops N}.
Notation st := (st FO).
Notation tobj := (tobj FO).
Notation det := (detection N).
Notation ct := (option (coord_transformation N)).
Variable dim : nat.
Hypothesis Hdim : 0 < dim.
Variable u : units N.
Variable R : nat -> fstate FO -> fstate FO -> Prop.
Hypothesis HR : filter_in_units dim u R.
Variables dh dr : dval N -> dval N.
Hypothesis Uh : distance_unit dh.
Hypothesis Ur : distance_unit dr.
Notation conv := (in_units u).
Notation cdet := (det_in_units u).
Notation cflat := (flat_in_units dim u).
Notation cstate := (state_in_units dim u).

(** Everything except the filter, the distances and abs_to_rel. *)
Definition fl0 : fstate FO := f_create FO [].
Definition erase (o : tobj) : tobj := set_filter fl0 (set_abs_to_rel None (set_last_distance None (set_min_distance None o))).
Definition arel (a a' : option (points N -> points N)) : Prop :=
  match a, a' with
  | None, None => True
  | Some f, Some f' => forall p, shaped dim p -> shaped dim (f p) /\ f' (conv p) = conv (f p)
  | _, _ => False
  end.
Definition mrel (x x' : option (dval N)) : Prop := x' = option_map dh x \/ x' = option_map dr x.
Variable reid : Prop.
Variable base : nat.
Variable size : label -> nat.
Record orel (o o' : tobj) : Prop := MkORel {
  or_core : erase o = erase o';
  or_dim : oc_dim_points (o_conf o) = dim;
  or_num : 0 < oc_num_points (o_conf o);
  or_size : reid -> oc_num_points (o_conf o) = size (oc_label (o_conf o));
  or_filter : R (dim_z o) (o_filter o) (o_filter o');
  or_last : o_last_distance o' = option_map dh (o_last_distance o);
  or_min : mrel (o_min_distance o) (o_min_distance o');
  or_abs : arel (o_abs_to_rel o) (o_abs_to_rel o')
}.
Definition known_in (s : st) (i : nat) : Prop := 1 <= i <= s_icount s.
Record sim (s s' : st) : Prop := MkSim {
  sm_heap : forall r, s_heap s' r = cdet (s_heap s r);
  sm_shaped : forall r, det_shaped dim (s_heap s r);
  sm_size : reid -> forall r, List.length (d_points (s_heap s r)) = size (d_label (s_heap s r));
  sm_obj : forall i, known_in s i -> orel (s_store s i) (s_store s' i);
  sm_tracked : s_tracked s = s_tracked s';
  sm_known : Forall (known_in s) (s_tracked s);
  sm_count : s_count s = s_count s';
  sm_icount : s_icount s = s_icount s';
  sm_gcount : s_gcount s = s_gcount s';
  sm_base : base <= s_icount s
}.
Definition agree {A} (x x' : st * result A) : Prop := snd x = snd x' /\ sim (fst x) (fst x').

Ltac core E := match type of E with erase ?a = erase ?b => destruct a, b; unfold erase in E; cbn in E; injection E; clear E; intros; subst end.
Lemma core_fields o o' : erase o = erase o' ->
  o_conf o = o_conf o' /\ o_hit o = o_hit o' /\ o_reid o = o_reid o' /\ o_last_det o = o_last_det o' /\ o_age o = o_age o' /\
  o_initializing o = o_initializing o' /\ o_id o = o_id o' /\ o_gid o = o_gid o' /\ o_once o = o_once o' /\ o_point_hits o = o_point_hits o' /\
  o_past o = o_past o'.
Proof. intros E. core E. cbn. repeat split. Qed.

(** ** Estimates *)
Lemma conv_shaped p : shaped dim p -> shaped dim (conv p).
Proof.
  intros [A B]. split; [destruct p; [elim A; reflexivity|discriminate]|]. unfold in_units. rewrite Forall_map. eapply Forall_impl; [|exact B].
  intros row H. cbn beta. rewrite em_length. exact H.
Qed.
Lemma flat_conv p : shaped dim p -> flatten (conv p) = cflat (flatten p).
Proof.
  intros [_ H]. pose proof (flatten_enum dim Hdim (fun k x => nadd (nmul (u_scale u k) x) (u_shift u k)) p H 0) as E. rewrite Nat.mul_0_r in E. exact E.
Qed.
Lemma cflat_length v : List.length (cflat v) = List.length v.
Proof. apply em_length. Qed.
Lemma positions_conv o o' : orel o o' ->
  shaped dim (reshape_rows (oc_dim_points (o_conf o)) (firstn (dim_z o) (f_x FO (o_filter o)))) /\
  reshape_rows (oc_dim_points (o_conf o')) (firstn (dim_z o') (f_x FO (o_filter o'))) =
  conv (reshape_rows (oc_dim_points (o_conf o)) (firstn (dim_z o) (f_x FO (o_filter o)))).
Proof.
  intros [A B C C1 D E F G]. destruct (core_fields _ _ A) as (A1 & _). destruct (fu_x _ _ _ HR _ _ _ D) as [X1 X2].
  unfold dim_z in *. rewrite <- A1, X2, B in *. set (n := oc_num_points (o_conf o)) in *.
  assert (L : List.length (firstn (dim * n) (f_x FO (o_filter o))) = dim * n) by (rewrite firstn_length; lia).
  destruct (reshape_ok dim Hdim n _ L) as (R1 & R2 & R3). split.
  - split; [|exact R1]. intros Z. rewrite Z in R3. cbn in R3. lia.
  - unfold state_in_units. rewrite firstn_app. rewrite cflat_length, L, Nat.sub_diag. cbn [firstn]. rewrite app_nil_r.
    rewrite firstn_all2 by (rewrite cflat_length; lia). unfold flat_in_units, in_units. apply (reshape_enum dim Hdim (fun k x => nadd (nmul (u_scale u k) x) (u_shift u k)) _ n L).
Qed.
Lemma velocity_conv o o' : orel o o' -> estimate_velocity o' = velocity_in_units u (estimate_velocity o).
Proof.
  intros [A B C C1 D E F G]. destruct (core_fields _ _ A) as (A1 & _). destruct (fu_x _ _ _ HR _ _ _ D) as [X1 X2].
  unfold estimate_velocity, dim_z in *. rewrite <- A1, X2, B in *. set (n := oc_num_points (o_conf o)) in *.
  assert (L : List.length (firstn (dim * n) (f_x FO (o_filter o))) = dim * n) by (rewrite firstn_length; lia).
  assert (L' : List.length (skipn (dim * n) (f_x FO (o_filter o))) = dim * n) by (rewrite skipn_length; lia).
  unfold state_in_units. rewrite skipn_app. rewrite cflat_length, L, Nat.sub_diag. cbn [skipn].
  rewrite skipn_all2 by (rewrite cflat_length; lia). cbn [app]. unfold flat_velocity, velocity_in_units. apply (reshape_enum dim Hdim (fun k x => nmul (u_scale u k) x) _ n L').
Qed.
Lemma estimate_conv o o' : orel o o' -> shaped dim (estimate o) /\ estimate o' = conv (estimate o) /\ get_estimate o' true = result_map conv (get_estimate o true).
Proof.
  intros H. destruct (positions_conv o o' H) as [P1 P2]. pose proof (or_abs _ _ H) as G. unfold estimate, get_estimate, arel in *. rewrite P2.
  destruct (o_abs_to_rel o) as [f|], (o_abs_to_rel o') as [f'|]; try contradiction; cbn; auto. destruct (G _ P1) as [G1 G2]. auto.
Qed.
Lemma orel_units o o' : orel o o' -> obj_in_units dim u dh dr o o'.
Proof.
  intros H. destruct (core_fields _ _ (or_core _ _ H)) as (A1 & A2 & A3 & A4 & A5 & A6 & A7 & A8 & A9 & A10 & A11). destruct (estimate_conv o o' H) as (E1 & E2 & E3).
  split; try congruence; auto; try apply (or_last _ _ H); try apply (or_min _ _ H). apply velocity_conv, H.
Qed.

(** ** Primitive changes *)
Lemma sim_obj i f f' s s' : sim s s' -> (orel (s_store s i) (s_store s' i) -> orel (f (s_store s i)) (f' (s_store s' i))) ->
  sim (mod_obj i f s) (mod_obj i f' s').
Proof. intros [A B B1 C D E F G H HB] K. split; cbn; auto. intros j Hj. unfold upd. destruct (Nat.eqb_spec j i) as [->|Hne]; auto. Qed.
Lemma sim_det r f f' s s' : sim s s' -> f' (cdet (s_heap s r)) = cdet (f (s_heap s r)) -> det_shaped dim (f (s_heap s r)) ->
  d_points (f (s_heap s r)) = d_points (s_heap s r) -> d_label (f (s_heap s r)) = d_label (s_heap s r) -> sim (mod_det r f s) (mod_det r f' s').
Proof.
  intros [A B B1 C D E F G H HB] K L L1 L2. split; cbn; auto; [| |intros W]; intros q; unfold upd; destruct (Nat.eqb_spec q r) as [->|Hne]; auto;
    [rewrite A, K; reflexivity|rewrite L1, L2; auto].
Qed.
Lemma sim_age r a s s' : sim s s' -> sim (mod_det r (d_set_age a) s) (mod_det r (d_set_age a) s').
Proof. intros H. apply sim_det; auto. exact (sm_shaped _ _ H r). Qed.
Lemma sim_tracked l s s' : sim s s' -> Forall (known_in s) l -> sim (s_set_tracked l s) (s_set_tracked l s').
Proof. intros [A B B1 C D E F G H HB] K. split; cbn; auto. Qed.
(** The same change of both objects, of the parts that are equal. *)
Definition plain (f : tobj -> tobj) : Prop := forall o o', erase o = erase o' ->
  erase (f o) = erase (f o') /\ forall o, o_conf (f o) = o_conf o /\ o_filter (f o) = o_filter o /\
  o_abs_to_rel (f o) = o_abs_to_rel o /\ o_last_distance (f o) = o_last_distance o /\ o_min_distance (f o) = o_min_distance o.
Lemma plain_rel f o o' : plain f -> orel o o' -> orel (f o) (f o').
Proof.
  intros P [A B C C1 D E F G]. destruct (P o o' A) as (E1 & E2). destruct (E2 o) as (X1 & X2 & X3 & X4 & X5). destruct (E2 o') as (Y1 & Y2 & Y3 & Y4 & Y5).
  split; auto; try (rewrite ?X1, ?X2, ?X3, ?X4, ?X5, ?Y2, ?Y3, ?Y4, ?Y5; auto). unfold dim_z. rewrite X1. exact D.
Qed.
Lemma sim_plain i f s s' : plain f -> sim s s' -> sim (mod_obj i f s) (mod_obj i f s').
Proof. intros P S. apply sim_obj; auto. apply plain_rel, P. Qed.
Lemma plain_hit f : (forall o o' : tobj, erase o = erase o' -> f o = f o') -> plain (fun o : tobj => set_hit (f o) o).
Proof. intros F o o' E. rewrite (F o o' E). core E. repeat split. Qed.
Lemma plain_init b : plain (set_initializing b).
Proof. intros o o' E. core E. repeat split. Qed.
Lemma plain_ph f : (forall o o' : tobj, erase o = erase o' -> f o = f o') -> plain (fun o : tobj => set_point_hits (f o) o).
Proof. intros F o o' E. rewrite (F o o' E). core E. repeat split. Qed.
Lemma plain_once f : (forall o o' : tobj, erase o = erase o' -> f o = f o') -> plain (fun o : tobj => set_once (f o) o).
Proof. intros F o o' E. rewrite (F o o' E). core E. repeat split. Qed.
Lemma plain_last r : plain (set_last_det r).
Proof. intros o o' E. core E. repeat split. Qed.
Lemma plain_past f : (forall o o' : tobj, erase o = erase o' -> f o = f o') -> plain (fun o : tobj => set_past (f o) o).
Proof. intros F o o' E. rewrite (F o o' E). core E. repeat split. Qed.
Lemma sim_ids i s s' : known_in s i -> sim s s' -> sim (acquire_ids i s) (acquire_ids i s').
Proof.
  intros Hi [A B B1 C D E F G H HB]. unfold acquire_ids. split; cbn; auto.
  intros j Hj. unfold upd. destruct (Nat.eqb_spec j i) as [->|Hne]; auto. destruct (C i Hi) as [A' B' C' C1' D' E' F' G'].
  split; cbn; auto. rewrite F, H. clear -A'. core A'. reflexivity.
Qed.
Lemma orel_filter f f' o o' : orel o o' -> R (dim_z o) f f' -> orel (set_filter f o) (set_filter f' o').
Proof. intros [A B C C1 D E F G] H. split; cbn; auto. all: (clear -A; core A; reflexivity). Qed.
Lemma orel_min v v' o o' : orel o o' -> mrel v v' -> orel (set_min_distance v o) (set_min_distance v' o').
Proof. intros [A B C C1 D E F G] H. split; cbn; auto. all: (clear -A; core A; reflexivity). Qed.
Lemma orel_dist v o o' : orel o o' -> orel (set_last_distance v o) (set_last_distance (option_map dh v) o').
Proof. intros [A B C C1 D E F G]. split; cbn; auto. all: (clear -A; core A; reflexivity). Qed.
Lemma orel_step o o' : orel o o' -> orel (tracker_step o) (tracker_step o').
Proof.
  intros H. unfold tracker_step. set (o1 := set_oage _ _). set (o1' := set_oage (o_age (set_point_hits _ (set_hit _ (set_reid _ o'))) + 1)%Z _).
  assert (H1 : orel o1 o1').
  { destruct H as [A B C C1 D E F G]. split; auto. clear -A. unfold o1, o1'. core A. reflexivity. }
  apply orel_filter; auto. exact (fu_predict _ _ _ HR _ _ _ (or_filter _ _ H1)).
Qed.
Lemma orel_ct T T' o o' : ct_in_units dim u T T' -> orel o o' -> orel (obj_update_ct T o) (obj_update_ct T' o').
Proof.
  intros HT [A B C C1 D E F G]. destruct T as [T|], T' as [T'|]; cbn in HT; try contradiction; [|split; auto]. split; cbn; auto.
  all: try (clear -A; core A; reflexivity).
  intros p Hp. destruct (HT p Hp) as (_ & _ & _ & X & Y). auto.
Qed.

(** ** Methods of objects *)
Lemma agree_ret {A} (a : A) s s' : sim s s' -> agree (s, Ret a) (s', Ret a).
Proof. intros S. split; auto. Qed.
Lemma agree_raise {A} e s s' : sim s s' -> agree (A:=A) (s, Raise e) (s', Raise e).
Proof. intros S. split; auto. Qed.
Lemma sim_core i s s' : known_in s i -> sim s s' -> erase (s_store s i) = erase (s_store s' i).
Proof. intros Hi S. exact (or_core _ _ (sm_obj _ _ S i Hi)). Qed.

Lemma sim_cond_add i r s s' : known_in s i -> sim s s' -> agree (cond_add_past i r s) (cond_add_past i r s').
Proof.
  intros Hi S. unfold cond_add_past. destruct (core_fields _ _ (sim_core i s s' Hi S)) as (E1 & _ & _ & _ & E5 & _ & _ & _ & _ & _ & E11).
  rewrite <- E1, <- E11, <- E5. destruct (Nat.eqb _ 0); [apply agree_ret, S|]. destruct (Nat.ltb _ _).
  - apply agree_ret. apply sim_plain; [apply plain_past; intros o o' E; core E; reflexivity|]. apply sim_age, S.
  - destruct (o_past (s_store s i)) as [|first rest] eqn:Ep; [apply agree_raise, S|]. rewrite (sm_heap _ _ S first). cbn [d_age det_in_units].
    destruct (d_age _); [|apply agree_raise, S]. destruct (Z.leb _ _); [|apply agree_ret, S].
    apply agree_ret. apply sim_plain; [apply (plain_past (fun _ => rest ++ [r])); reflexivity|]. apply sim_age, S.
Qed.

Lemma repeat_each_map {A B} (f : A -> B) k l : repeat_each k (map f l) = map f (repeat_each k l).
Proof. unfold repeat_each. induction l as [|a l IH]; cbn; auto. rewrite IH, map_app. f_equal. clear. induction k; cbn; congruence. Qed.
Lemma repeat_each_length {A} k (l : list A) : List.length (repeat_each k l) = k * List.length l.
Proof. unfold repeat_each. induction l as [|a l IH]; cbn; [lia|]. rewrite app_length, repeat_length, IH. lia. Qed.
Lemma mask_assign_length {A} : forall mask (src dst : list A), List.length (mask_assign mask src dst) = List.length dst.
Proof. induction mask as [|m mask IH]; intros [|a src] [|d dst]; cbn; auto. Qed.
Lemma mask_fill_length {A} (v : A) : forall mask dst, List.length (mask_fill mask v dst) = List.length dst.
Proof. induction mask as [|m mask IH]; intros [|d dst]; cbn; auto. Qed.
Lemma scale_zero k : nmul (u_scale u k) n0 = n0.
Proof.
  destruct rg as [Ra Rb Rc Rd Re Rf Rg Rh Ri]. set (x := u_scale u k).
  assert (E : nadd (nmul x n0) (nmul x n0) = nmul x n0) by (rewrite !(Re x n0), <- Rg, Ra; reflexivity).
  assert (E2 : nadd (nadd (nmul x n0) (nmul x n0)) (nsub n0 (nmul x n0)) = nadd (nmul x n0) (nsub n0 (nmul x n0))) by (rewrite E; reflexivity).
  rewrite <- Rc, Ri in E2. rewrite Rb, Ra in E2. exact E2.
Qed.
Lemma reset_in_units d now once (z x : list N) : List.length z = d -> List.length x = 2 * d ->
  reset_first_detected dim d now once (cflat z) (cstate d x) = cstate d (reset_first_detected dim d now once z x) /\
  List.length (reset_first_detected dim d now once z x) = 2 * d.
Proof.
  intros Lz Lx. unfold reset_first_detected, state_in_units.
  assert (L1 : List.length (firstn d x) = d) by (rewrite firstn_length; lia).
  assert (L2 : List.length (skipn d x) = d) by (rewrite skipn_length; lia).
  set (a := firstn d x) in *. set (b := skipn d x) in *.
  set (m := first_detection_mask dim now once). set (v := map negb (repeat_each dim once)).
  assert (L3 : List.length (mask_assign m z a) = d) by (rewrite mask_assign_length; auto).
  split; [|rewrite app_length, L3, mask_fill_length, L2; lia].
  rewrite !firstn_app, !skipn_app. rewrite cflat_length, L1, L3, Nat.sub_diag. cbn [firstn skipn]. rewrite !app_nil_r.
  rewrite !(firstn_all2 (n := d)) by (rewrite ?cflat_length; lia). rewrite !(skipn_all2 (n := d)) by (rewrite ?cflat_length; lia). cbn [app].
  unfold flat_in_units. rewrite em_mask_assign. f_equal. unfold flat_velocity. apply em_mask_fill. intros k. apply scale_zero.
Qed.

Lemma sim_hit i r p s s' : known_in s i -> sim s s' -> agree (hit i r p s) (hit i r p s').
Proof.
  intros Hi S. pose proof (sim_cond_add i r s s' Hi S) as [E S']. unfold hit.
  assert (Hi' : known_in (fst (cond_add_past i r s)) i).
  { unfold cond_add_past. destruct (Nat.eqb _ 0); auto. destruct (Nat.ltb _ _); auto. destruct (o_past _); auto. destruct (d_age _); auto. destruct (Z.leb _ _); auto. }
  destruct (cond_add_past i r s) as [t1 [u1|e1]], (cond_add_past i r s') as [t2 [u2|e2]]; cbn [fst snd] in E, S', Hi'; try discriminate.
  2: { injection E as ->. apply agree_raise, S'. }
  clear E S Hi s s' u1 u2. rename t1 into s1, t2 into s2, S' into S, Hi' into Hi.
  assert (S1 := sim_plain i (set_last_det r) s1 s2 (plain_last r) S). assert (Hi1 : known_in (mod_obj i (set_last_det r) s1) i) by exact Hi.
  set (a1 := mod_obj i (set_last_det r) s1) in *. set (a2 := mod_obj i (set_last_det r) s2) in *. clearbody a1 a2. clear S Hi s1 s2.
  assert (S2 : sim (mod_obj i (fun o => set_hit (Z.min (o_hit o + 2 * p) (oc_hit_counter_max (o_conf o))) o) a1)
                   (mod_obj i (fun o => set_hit (Z.min (o_hit o + 2 * p) (oc_hit_counter_max (o_conf o))) o) a2)).
  { apply sim_plain; auto. apply plain_hit. intros o o' E. core E. reflexivity. }
  assert (Hk : known_in (mod_obj i (fun o => set_hit (Z.min (o_hit o + 2 * p) (oc_hit_counter_max (o_conf o))) o) a1) i) by exact Hi1.
  set (b1 := mod_obj i _ a1) in *. set (b2 := mod_obj i _ a2) in *. clearbody b1 b2. clear S1 Hi1 a1 a2.
  destruct (core_fields _ _ (sim_core i b1 b2 Hk S2)) as (E1 & E2 & _ & _ & _ & E6 & _).
  rewrite <- E1, <- E2, <- E6.
  set (cnd := (o_initializing (s_store b1 i) && (oc_delay (o_conf (s_store b1 i)) <? o_hit (s_store b1 i))%Z)%bool).
  assert (S3 : sim (if cnd then acquire_ids i (mod_obj i (set_initializing false) b1) else b1)
                   (if cnd then acquire_ids i (mod_obj i (set_initializing false) b2) else b2)).
  { destruct cnd; auto. apply sim_ids; [exact Hk|]. apply sim_plain; auto. apply plain_init. }
  assert (Hc : known_in (if cnd then acquire_ids i (mod_obj i (set_initializing false) b1) else b1) i) by (destruct cnd; exact Hk).
  set (c1 := if cnd then acquire_ids i (mod_obj i (set_initializing false) b1) else b1) in *.
  set (c2 := if cnd then acquire_ids i (mod_obj i (set_initializing false) b2) else b2) in *.
  clearbody c1 c2. clear S2 E1 E2 E6 Hk cnd b1 b2. pose proof (sm_obj _ _ S3 i Hc) as OR.
  destruct (core_fields _ _ (or_core _ _ OR)) as (E1 & _ & _ & _ & _ & _ & _ & _ & E9 & E10 & _).
  assert (Ed : dim_z (s_store c1 i) = dim_z (s_store c2 i)) by (unfold dim_z; rewrite E1; reflexivity).
  rewrite (sm_heap _ _ S3 r). change (over_threshold (oc_det_thr (o_conf (s_store c2 i))) (oc_num_points (o_conf (s_store c2 i))) (cdet (s_heap c1 r)))
    with (over_threshold (oc_det_thr (o_conf (s_store c2 i))) (oc_num_points (o_conf (s_store c2 i))) (s_heap c1 r)).
  cbn [d_scores d_absolute_points det_in_units].
  rewrite <- E1, <- E9, <- E10, <- Ed. destruct (sm_shaped _ _ S3 r) as (_ & Sh & _). rewrite (flat_conv _ Sh), cflat_length.
  set (mask := over_threshold _ _ (s_heap c1 r)).
  set (counted := match d_scores (s_heap c1 r) with Some _ => mask | None => _ end).
  set (z := flatten (d_absolute_points (s_heap c1 r))).
  destruct (negb (Nat.eqb (List.length counted) _)); [apply agree_raise, S3|].
  assert (S4 : sim (mod_obj i (fun o => set_point_hits (point_hits_update p (oc_pointwise_max (o_conf o)) counted (o_point_hits o)) o) c1)
                   (mod_obj i (fun o => set_point_hits (point_hits_update p (oc_pointwise_max (o_conf o)) counted (o_point_hits o)) o) c2)).
  { apply sim_plain; auto. apply plain_ph. intros o o' E. core E. reflexivity. }
  assert (Hx : known_in (mod_obj i (fun o => set_point_hits (point_hits_update p (oc_pointwise_max (o_conf o)) counted (o_point_hits o)) o) c1) i) by exact Hc.
  assert (Cx : o_conf (s_store (mod_obj i (fun o => set_point_hits (point_hits_update p (oc_pointwise_max (o_conf o)) counted (o_point_hits o)) o) c1) i) = o_conf (s_store c1 i)).
  { cbn. unfold upd. rewrite Nat.eqb_refl. reflexivity. }
  set (x1 := mod_obj i _ c1) in *. set (x2 := mod_obj i _ c2) in *. clearbody x1 x2.
  destruct (negb (Nat.eqb (List.length z) _)) eqn:Lz; [apply agree_raise, S4|]. destruct (negb (Nat.eqb (List.length mask) _)) eqn:Lm; [apply agree_raise, S4|]. cbn [orb].
  apply negb_false_iff, Nat.eqb_eq in Lz, Lm. rewrite (or_dim _ _ OR).
  rewrite repeat_each_map. set (ms := repeat_each dim mask).
  assert (Lms : List.length ms = dim_z (s_store c1 i)) by (unfold ms, dim_z; rewrite repeat_each_length, Lm, (or_dim _ _ OR); reflexivity).
  set (diagonal := map (fun m : bool => if m then n1 else n0) ms).
  assert (S5 : sim (mod_obj i (fun o => set_filter (f_update FO (o_filter o) z diagonal) o) x1)
                   (mod_obj i (fun o => set_filter (f_update FO (o_filter o) (cflat z) diagonal) o) x2)).
  { apply sim_obj; auto. intros H. apply orel_filter; auto. apply (fu_update _ _ _ HR _ _ _ z ms (or_filter _ _ H)).
    - rewrite Lz. unfold dim_z. rewrite Cx. reflexivity.
    - rewrite Lms. unfold dim_z. rewrite Cx. reflexivity. }
  assert (Cy : o_conf (s_store (mod_obj i (fun o => set_filter (f_update FO (o_filter o) z diagonal) o) x1) i) = o_conf (s_store c1 i)).
  { cbn. unfold upd. rewrite Nat.eqb_refl. exact Cx. }
  assert (Hy : known_in (mod_obj i (fun o => set_filter (f_update FO (o_filter o) z diagonal) o) x1) i) by exact Hx.
  set (y1 := mod_obj i _ x1) in *. set (y2 := mod_obj i _ x2) in *. clearbody y1 y2.
  destruct (negb (Nat.eqb (List.length (o_once _)) _)); [apply agree_raise, S5|].
  apply agree_ret. apply sim_plain; [apply plain_once; intros o o' E; core E; reflexivity|].
  apply sim_obj; auto. intros H. apply orel_filter; auto.
  destruct (fu_x _ _ _ HR _ _ _ (or_filter _ _ H)) as [X1 X2].
  destruct (core_fields _ _ (or_core _ _ H)) as (E1' & _ & _ & _ & _ & _ & _ & _ & E9' & _).
  assert (Dz : dim_z (s_store y1 i) = dim_z (s_store c1 i)) by (unfold dim_z; rewrite Cy; reflexivity).
  rewrite X2, <- E9', Dz in *.
  destruct (reset_in_units (dim_z (s_store c1 i)) mask (o_once (s_store y1 i)) z (f_x FO (o_filter (s_store y1 i))) Lz X1) as [Q1 Q2].
  assert (Dz' : dim_z (s_store y2 i) = dim_z (s_store c1 i)) by (unfold dim_z; rewrite <- E1', Cy; reflexivity). rewrite ?Dz'.
  rewrite Q1. pose proof (fun x => fu_set_x _ _ _ HR _ _ _ x (or_filter _ _ H)) as FS. rewrite Dz in FS. apply FS, Q2.
Qed.
Definition act (i : nat) : Prop := 1 <= i <= base.
Lemma act_known s s' i : sim s s' -> act i -> known_in s i.
Proof. intros S [A B]. pose proof (sm_base _ _ S). split; lia. Qed.

(** [merge] *)
Lemma cond_add_conf i r (s : st) j : o_conf (s_store (fst (cond_add_past i r s)) j) = o_conf (s_store s j).
Proof.
  unfold cond_add_past. destruct (Nat.eqb _ 0); auto. destruct (Nat.ltb _ _).
  - cbn. unfold upd. destruct (Nat.eqb_spec j i) as [->|]; reflexivity.
  - destruct (o_past _); auto. destruct (d_age _); auto. destruct (Z.leb _ _); auto. cbn. unfold upd. destruct (Nat.eqb_spec j i) as [->|]; reflexivity.
Qed.
Lemma mod_conf i f (s : st) j : (forall o, o_conf (f o) = o_conf o) -> o_conf (s_store (mod_obj i f s) j) = o_conf (s_store s j).
Proof. intros H. cbn. unfold upd. destruct (Nat.eqb_spec j i) as [->|]; auto. Qed.
Lemma acquire_conf i (s : st) j : o_conf (s_store (acquire_ids i s) j) = o_conf (s_store s j).
Proof. unfold acquire_ids. rewrite mod_conf; reflexivity. Qed.
Lemma hit_conf i r p (s : st) j : o_conf (s_store (fst (hit i r p s)) j) = o_conf (s_store s j).
Proof.
  rewrite <- (cond_add_conf i r s j). unfold hit. destruct (cond_add_past i r s) as [t [x|e]]; [|reflexivity]. cbn [fst]. cbv zeta.
  set (a := mod_obj i (set_last_det r) t). assert (A : o_conf (s_store a j) = o_conf (s_store t j)) by (apply mod_conf; reflexivity). rewrite <- A. clearbody a. clear A.
  set (b := mod_obj i _ a). assert (B : o_conf (s_store b j) = o_conf (s_store a j)) by (apply mod_conf; reflexivity). rewrite <- B. clearbody b. clear B.
  set (cnd := (o_initializing (s_store b i) && _)%bool). set (c := if cnd then acquire_ids i (mod_obj i (set_initializing false) b) else b).
  assert (C : o_conf (s_store c j) = o_conf (s_store b j)) by (unfold c; destruct cnd; auto; rewrite acquire_conf; apply mod_conf; reflexivity). rewrite <- C. clearbody c. clear C.
  destruct (negb _); [reflexivity|]. set (x1 := mod_obj i _ c). assert (X : o_conf (s_store x1 j) = o_conf (s_store c j)) by (apply mod_conf; reflexivity). rewrite <- X.
  clearbody x1. destruct (negb _ || negb _); [reflexivity|]. set (y := mod_obj i _ x1). assert (Y : o_conf (s_store y j) = o_conf (s_store x1 j)) by (apply mod_conf; reflexivity).
  rewrite <- Y. clearbody y. destruct (negb _); [reflexivity|]. cbn [fst]. rewrite !mod_conf; reflexivity.
Qed.
Lemma add_pasts_conf i rs : forall (s : st) j, o_conf (s_store (fst (add_pasts i rs s)) j) = o_conf (s_store s j).
Proof.
  induction rs as [|r rs IH]; intros s j; cbn; auto. rewrite <- (cond_add_conf i r s j). destruct (cond_add_past i r s) as [t [x|e]]; cbn; auto.
Qed.
Lemma merge_conf i k (s : st) j : o_conf (s_store (fst (merge i k s)) j) = o_conf (s_store s j).
Proof. unfold merge. cbv zeta. rewrite add_pasts_conf. apply mod_conf. reflexivity. Qed.
Lemma sim_add_pasts i rs : forall s s', act i -> sim s s' -> agree (add_pasts i rs s) (add_pasts i rs s').
Proof.
  induction rs as [|r rs IH]; intros s s' Hi S; [apply agree_ret, S|]. cbn [add_pasts].
  pose proof (sim_cond_add i r s s' (act_known _ _ _ S Hi) S) as [E S'].
  destruct (cond_add_past i r s) as [t1 [u1|e1]], (cond_add_past i r s') as [t2 [u2|e2]]; cbn [fst snd] in E, S'; try discriminate; auto.
  injection E as ->. apply agree_raise, S'.
Qed.
Lemma sim_merge i j s s' : act i -> act j -> oc_num_points (o_conf (s_store s i)) = oc_num_points (o_conf (s_store s j)) -> sim s s' -> agree (merge i j s) (merge i j s').
Proof.
  intros Hi Hj Hn S. unfold merge. pose proof (sm_obj _ _ S j (act_known _ _ _ S Hj)) as OJ.
  destruct (core_fields _ _ (or_core _ _ OJ)) as (E1 & _ & _ & _ & _ & _ & _ & _ & _ & _ & E11). rewrite <- E11.
  apply sim_add_pasts; auto. apply sim_obj; auto. intros [A B C C1 D E F G]. destruct OJ as [A' B' C' C1' D' E' F' G'].
  set (c1 := s_store s j) in *. set (c2 := s_store s' j) in *. set (o1 := s_store s i) in *. set (o2 := s_store s' i) in *.
  clearbody c1 c2 o1 o2. split; cbn; auto.
  - clear -A A'. core A. core A'. reflexivity.
  - assert (Z : dim_z o1 = dim_z c1) by (unfold dim_z; congruence). unfold dim_z in Z |- *. cbn. rewrite Z. exact D'.
Qed.

(** ** Distances *)
Definition cand_ok (c : cand) : Prop := match c with CDet r => True | CObj i => act i end.
Lemma view_obj_units s s' i : sim s s' -> act i -> view_in_units dim u dh dr (view_obj s i) (view_obj s' i).
Proof.
  intros S Hi. pose proof (sm_obj _ _ S i (act_known _ _ _ S Hi)) as O. destruct (core_fields _ _ (or_core _ _ O)) as (_ & _ & _ & E4 & _ & _ & _ & _ & _ & _ & E11).
  split; cbn [v_obj v_last v_past view_obj].
  - apply orel_units, O.
  - rewrite <- E4. apply (sm_heap _ _ S).
  - rewrite <- E11. rewrite map_map. apply map_ext. intros r. apply (sm_heap _ _ S).
  - split; [apply (sm_shaped _ _ S)|]. rewrite Forall_map. apply Forall_forall. intros r _. apply (sm_shaped _ _ S).
Qed.
Lemma view_cand_units s s' c : sim s s' -> cand_ok c -> cand_in_units dim u dh dr (view_cand s c) (view_cand s' c).
Proof. intros S Hc. destruct c as [r|j]; cbn; [split; [apply (sm_heap _ _ S)|apply (sm_shaped _ _ S)]|apply view_obj_units; auto]. Qed.
Lemma obj_label_same s s' i : sim s s' -> act i -> obj_label s' i = obj_label s i.
Proof.
  intros S Hi. unfold obj_label. destruct (core_fields _ _ (or_core _ _ (sm_obj _ _ S i (act_known _ _ _ S Hi)))) as (E & _). rewrite E. reflexivity.
Qed.
Lemma cand_label_same s s' c : sim s s' -> cand_ok c -> cand_label s' c = cand_label s c.
Proof. intros S Hc. destruct c as [r|j]; cbn; [rewrite (sm_heap _ _ S); reflexivity|]. apply (obj_label_same s s' j S Hc). Qed.
Lemma map_result_units {A B B'} (f : A -> result B) (f' : A -> result B') (k : B -> B') l : (forall x, In x l -> f' x = result_map k (f x)) ->
  map_result f' l = result_map (map k) (map_result f l).
Proof.
  induction l as [|a l IH]; intros H; cbn; auto. rewrite (H a (or_introl eq_refl)). destruct (f a); cbn; auto.
  rewrite IH by (intros x Hx; apply H; right; exact Hx). destruct (map_result f l); reflexivity.
Qed.
Section Phase.
Variables rnd rnd' : dval N -> dval N.
Variable k : dval N -> dval N.
Hypothesis Hk : (k = dh \/ k = dr).
Hypothesis Uk : distance_unit k.
Hypothesis Hrnd : forall d, rnd' (k d) = k (rnd d).
Lemma scalar_units f f' s s' objects cands : scalar_in_units dim u dh dr k f f' -> sim s s' -> Forall act objects -> Forall cand_ok cands ->
  scalar_distances rnd' f' s' objects cands = result_map (map (map k)) (scalar_distances rnd f s objects cands).
Proof.
  intros Hf S Fo Fc. rewrite Forall_forall in Fo, Fc. unfold scalar_distances. apply map_result_units. intros c Hc. apply map_result_units. intros i Hi.
  rewrite (cand_label_same s s' c S (Fc c Hc)), (obj_label_same s s' i S (Fo i Hi)). destruct (negb _); cbn; [rewrite (du_infinity _ Uk); reflexivity|].
  rewrite (Hf _ _ _ _ (view_cand_units s s' c S (Fc c Hc)) (view_obj_units s s' i S (Fo i Hi))). destruct (f _ _); cbn; auto. rewrite Hrnd. reflexivity.
Qed.
Lemma assign_row_map : forall mask drow row, assign_row mask (map k drow) (map k row) = map k (assign_row mask drow row).
Proof. induction mask as [|[] mask IH]; intros drow [|x row]; cbn; auto; [destruct drow; cbn; f_equal; [apply (IH [])|apply IH]|f_equal; apply IH]. Qed.
Lemma assign_rows_map om : forall cm D M, assign_rows cm om (map (map k) D) (map (map k) M) = map (map k) (assign_rows cm om D M).
Proof.
  induction cm as [|[] cm IH]; intros D [|r M]; cbn; auto; [destruct D; cbn; f_equal; [apply (IH [])|apply assign_row_map|apply IH]|f_equal; apply IH].
Qed.
Lemma stack_conv ps : Forall (shaped dim) ps -> stack (map (fun p => flatten (conv p)) ps) = result_map (fun _ => map (fun p => flatten (conv p)) ps) (stack (map flatten ps)).
Proof.
  intros F. assert (L : forall p, shaped dim p -> List.length (flatten (conv p)) = List.length (flatten p)) by (intros p Hp; rewrite flat_conv by auto; apply cflat_length).
  destruct ps as [|p ps]; [reflexivity|]. unfold stack. cbn [map]. assert (Hp : shaped dim p) by (inversion F; auto).
  change (flatten p :: map flatten ps) with (map flatten (p :: ps)). change (flatten (conv p) :: map (fun p => flatten (conv p)) ps) with (map (fun p => flatten (conv p)) (p :: ps)).
  rewrite (L p Hp).
  assert (E : forallb (fun w : list N => Nat.eqb (List.length w) (List.length (flatten p))) (map (fun p => flatten (conv p)) (p :: ps)) =
              forallb (fun w : list N => Nat.eqb (List.length w) (List.length (flatten p))) (map flatten (p :: ps))).
  { generalize (List.length (flatten p)). intros n. induction F as [|q l Hq _ IH]; [reflexivity|]. cbn [map forallb]. rewrite IH, (L q Hq). reflexivity. }
  rewrite E. destruct (forallb _ (map flatten (p :: ps))); reflexivity.
Qed.
Lemma stack_ret l l' : @stack N l = Ret l' -> l' = l.
Proof. unfold stack. destruct l; [discriminate|]. destruct (forallb _ _); [|discriminate]. intros E. injection E as <-. reflexivity. Qed.
Definition cand_points (s : st) (c : cand) : points N := match c with CDet r => d_points (s_heap s r) | CObj i => estimate (s_store s i) end.
Lemma cand_points_units s s' c : sim s s' -> cand_ok c -> shaped dim (cand_points s c) /\ cand_points s' c = conv (cand_points s c).
Proof.
  intros S Hc. destruct c as [r|j]; cbn.
  - rewrite (sm_heap _ _ S). split; [apply (sm_shaped _ _ S)|reflexivity].
  - destruct (estimate_conv _ _ (sm_obj _ _ S j (act_known _ _ _ S Hc))) as (A & B & _). auto.
Qed.
Lemma cand_vector_points (s : st) c : cand_vector s c = flatten (cand_points s c).
Proof. destruct c; reflexivity. Qed.
Lemma vector_loop_units f f' s s' objects cands : vector_in_units dim u k f f' -> sim s s' -> Forall act objects -> Forall cand_ok cands ->
  forall labels M, vectorized_loop rnd' f' s' objects cands labels (map (map k) M) = result_map (map (map k)) (vectorized_loop rnd f s objects cands labels M).
Proof.
  intros Hf S Fo Fc. rewrite Forall_forall in Fo, Fc. induction labels as [|l labels IH]; intros M; cbn [vectorized_loop]; [reflexivity|].
  assert (E1 : map (fun i => String.eqb (label_str (obj_label s' i)) l) objects = map (fun i => String.eqb (label_str (obj_label s i)) l) objects).
  { apply map_ext_in. intros i Hi. rewrite (obj_label_same s s' i S (Fo i Hi)). reflexivity. }
  assert (E2 : map (fun c => String.eqb (label_str (cand_label s' c)) l) cands = map (fun c => String.eqb (label_str (cand_label s c)) l) cands).
  { apply map_ext_in. intros i Hi. rewrite (cand_label_same s s' i S (Fc i Hi)). reflexivity. }
  assert (E3 : filter (fun i => String.eqb (label_str (obj_label s' i)) l) objects = filter (fun i => String.eqb (label_str (obj_label s i)) l) objects).
  { apply filter_ext_in. intros i Hi. rewrite (obj_label_same s s' i S (Fo i Hi)). reflexivity. }
  assert (E4 : filter (fun c => String.eqb (label_str (cand_label s' c)) l) cands = filter (fun c => String.eqb (label_str (cand_label s c)) l) cands).
  { apply filter_ext_in. intros i Hi. rewrite (cand_label_same s s' i S (Fc i Hi)). reflexivity. }
  rewrite E1, E2, E3, E4. set (objs := filter _ objects). set (cs := filter _ cands).
  assert (Fo' : forall i, In i objs -> act i) by (intros i Hi; apply filter_In in Hi; apply Fo, Hi).
  assert (Fc' : forall c, In c cs -> cand_ok c) by (intros i Hi; apply filter_In in Hi; apply Fc, Hi). clearbody objs cs.
  set (ps := map (cand_points s) cs). set (qs := map (fun i => estimate (s_store s i)) objs).
  assert (Hp : Forall (shaped dim) ps) by (unfold ps; rewrite Forall_map; apply Forall_forall; intros c Hc; apply (cand_points_units s s' c S (Fc' c Hc))).
  assert (Hq : Forall (shaped dim) qs) by (unfold qs; rewrite Forall_map; apply Forall_forall; intros i Hi; apply (cand_points_units s s' (CObj i) S (Fo' i Hi))).
  assert (P : map (cand_vector s) cs = map flatten ps) by (unfold ps; rewrite map_map; apply map_ext; intros; apply cand_vector_points).
  assert (Q : map (fun i => flatten (estimate (s_store s i))) objs = map flatten qs) by (unfold qs; rewrite map_map; reflexivity).
  assert (P' : map (cand_vector s') cs = map (fun p => flatten (conv p)) ps).
  { unfold ps. rewrite map_map. apply map_ext_in. intros c Hc. rewrite cand_vector_points. destruct (cand_points_units s s' c S (Fc' c Hc)) as [_ E]. rewrite E. reflexivity. }
  assert (Q' : map (fun i => flatten (estimate (s_store s' i))) objs = map (fun p => flatten (conv p)) qs).
  { unfold qs. rewrite map_map. apply map_ext_in. intros i Hi. destruct (cand_points_units s s' (CObj i) S (Fo' i Hi)) as [_ E]. cbn in E. rewrite E. reflexivity. }
  rewrite P, P', Q, Q', (stack_conv qs Hq), (stack_conv ps Hp). destruct (stack (map flatten qs)) as [so|e] eqn:Eo; cbn [result_map]; [|reflexivity].
  destruct (stack (map flatten ps)) as [sc|e] eqn:Ec; cbn [result_map]; [|reflexivity]. apply stack_ret in Eo, Ec. subst so sc.
  rewrite (Hf ps qs Hp Hq). destruct (f (map flatten ps) (map flatten qs)) as [D|e]; cbn [result_map]; [|reflexivity].
  rewrite map_length. assert (Eb : forallb (fun r : list (dval N) => Nat.eqb (List.length r) (List.length objs)) (map (map k) D) = forallb (fun r : list (dval N) => Nat.eqb (List.length r) (List.length objs)) D).
  { generalize (List.length objs). intros n. clear. induction D as [|r D IH]; cbn; auto. rewrite map_length, IH. reflexivity. }
  rewrite Eb. destruct (_ && _)%bool; [|reflexivity]. rewrite <- IH. f_equal. rewrite <- assign_rows_map. f_equal. rewrite !map_map. apply map_ext. intros r.
  rewrite !map_map. apply map_ext. intros x. apply Hrnd.
Qed.
Definition distance_units (d d' : distance FO) : Prop :=
  match d, d' with
  | ScalarDistance f, ScalarDistance f' => scalar_in_units dim u dh dr k f f'
  | VectorizedDistance f, VectorizedDistance f' => vector_in_units dim u k f f'
  | _, _ => False
  end.
Lemma distances_units d d' s s' objects cands : distance_units d d' -> sim s s' -> Forall act objects -> Forall cand_ok cands ->
  get_distances rnd' d' s' objects cands = result_map (map (map k)) (get_distances rnd d s objects cands).
Proof.
  intros Hd S Fo Fc. destruct d as [f|f], d' as [f'|f']; cbn in *; try contradiction; [apply scalar_units; auto|]. unfold vectorized_distances.
  assert (E1 : map (fun i => label_str (obj_label s' i)) objects = map (fun i => label_str (obj_label s i)) objects).
  { apply map_ext_in. intros i Hi. rewrite Forall_forall in Fo. rewrite (obj_label_same s s' i S (Fo i Hi)). reflexivity. }
  assert (E2 : map (fun c => label_str (cand_label s' c)) cands = map (fun c => label_str (cand_label s c)) cands).
  { apply map_ext_in. intros i Hi. rewrite Forall_forall in Fc. rewrite (cand_label_same s s' i S (Fc i Hi)). reflexivity. }
  rewrite E1, E2. set (M := map (fun _ => map (fun _ => DPInf) objects) cands : matrix N).
  assert (EM : map (map k) M = M). { unfold M. rewrite map_map. apply map_ext. intros _. rewrite map_map. apply map_ext. intros _. apply (du_infinity _ Uk). }
  destruct objects as [|o objects]; [cbn [result_map]; rewrite EM; reflexivity|]. destruct cands as [|c cands]; [cbn [result_map]; rewrite EM; reflexivity|].
  rewrite <- EM at 1. apply vector_loop_units; auto.
Qed.

(** ** The association *)
Variable thr : dval N.
Hypothesis Hs : can_stop rnd thr.
Hypothesis Hs' : can_stop rnd' (k thr).
Lemma sim_min M objects : forall j s s', sim s s' -> sim (set_min_distances thr M j objects s) (set_min_distances (k thr) (map (map k) M) j objects s').
Proof.
  induction objects as [|i objects IH]; intros j s s' S; cbn; auto. apply IH. apply sim_obj; auto. intros O. apply orel_min; auto.
  rewrite (col_min_in_units k Uk M j (unit_nan k Uk)), (du_order _ Uk). unfold mrel. destruct Hk as [Hk'|Hk'].
  - left. rewrite <- Hk'. destruct (dltb _ thr); reflexivity.
  - right. rewrite <- Hk'. destruct (dltb _ thr); reflexivity.
Qed.
Lemma remove_first_Forall (P : nat -> Prop) x l : Forall P l -> Forall P (remove_first x l).
Proof. induction 1; cbn; auto. destruct (Nat.eqb _ _); auto. Qed.
(** Merged objects have the same number of points. *)
Definition sized (M : matrix N) objects cands (s : st) : Prop := forall ci oi j i, nth_error cands ci = Some (CObj j) -> nth_error objects oi = Some i ->
  dltb (entry M ci oi) thr = true -> oc_num_points (o_conf (s_store s i)) = oc_num_points (o_conf (s_store s j)).
Lemma sim_matches M objects cands p pairs : Forall act objects -> Forall cand_ok cands -> (k = dh \/ Forall (fun c => match c with CObj _ => True | _ => False end) cands) ->
  forall uc mo uo s s', sim s s' -> sized M objects cands s ->
  agree (apply_matches thr M objects cands p pairs uc mo uo s) (apply_matches (k thr) (map (map k) M) objects cands p pairs uc mo uo s').
Proof.
  intros Fo Fc Fk. rewrite Forall_forall in Fo, Fc. induction pairs as [|[ci oi] pairs IH]; intros uc mo uo s s' S Z; [apply agree_ret, S|].
  cbn [apply_matches]. rewrite (entry_in_units k M ci oi (unit_nan k Uk)), (du_order _ Uk).
  destruct (nth_error cands ci) as [c|] eqn:Ec; [|apply agree_raise, S].
  destruct (nth_error objects oi) as [i|] eqn:Ei; [|apply agree_raise, S].
  pose proof Ec as Ec'. pose proof Ei as Ei'. apply nth_error_In in Ec, Ei. pose proof Ec as Ic. apply Fc in Ec. apply Fo in Ei.
  destruct (dltb _ thr) eqn:El; [|apply IH; auto]. destruct c as [r|j]; cbn in Ec.
  - pose proof (sim_hit i r p s s' (act_known _ _ _ S Ei) S) as [E S']. pose proof (hit_conf i r p s) as HC.
    destruct (hit i r p s) as [t1 [u1|e1]], (hit i r p s') as [t2 [u2|e2]]; cbn [fst snd] in E, S', HC; try discriminate.
    + apply IH.
      * apply sim_obj; auto. intros O. destruct Fk as [Fk|Fk]; [|rewrite Forall_forall in Fk; elim (Fk _ Ic)].
        rewrite Fk. apply (orel_dist (Some (entry M ci oi))). exact O.
      * intros a b x y H1 H2 H3. rewrite !mod_conf by reflexivity. rewrite !HC. exact (Z a b x y H1 H2 H3).
    + injection E as ->. apply agree_raise, S'.
  - pose proof (sim_merge i j s s' Ei Ec (Z ci oi j i Ec' Ei' El) S) as [E S']. pose proof (merge_conf i j s) as HC.
    destruct (merge i j s) as [t1 [u1|e1]], (merge i j s') as [t2 [u2|e2]]; cbn [fst snd] in E, S', HC; try discriminate.
    + rewrite <- (sm_tracked _ _ S'). destruct (existsb _ _); [|apply agree_raise, S'].
      apply IH; [apply sim_tracked; auto; apply remove_first_Forall, (sm_known _ _ S')|].
      intros a b x y H1 H2 H3. cbn. rewrite !HC. exact (Z a b x y H1 H2 H3).
    + injection E as ->. apply agree_raise, S'.
Qed.
Lemma min_conf M objects : forall j (s : st) i, o_conf (s_store (set_min_distances thr M j objects s) i) = o_conf (s_store s i).
Proof. induction objects as [|o objects IH]; intros j s i; cbn [set_min_distances]; auto. rewrite IH. apply mod_conf. reflexivity. Qed.
Lemma sim_phase d d' objects cands p s s' : distance_units d d' -> Forall act objects -> Forall cand_ok cands ->
  (k = dh \/ Forall (fun c => match c with CObj _ => True | _ => False end) cands) -> sim s s' ->
  (forall M, get_distances rnd d s objects cands = Ret M -> sized M objects cands s) ->
  agree (update_objects_in_place rnd d thr objects cands p s) (update_objects_in_place rnd' d' (k thr) objects cands p s').
Proof.
  intros Hd Fo Fc Fk S Z. unfold update_objects_in_place. destruct cands as [|c0 cands0]; [apply agree_ret, S|].
  set (cands := c0 :: cands0) in *. clearbody cands. rewrite (distances_units d d' s s' objects cands Hd S Fo Fc).
  destruct (get_distances rnd d s objects cands) as [M|e]; cbn [result_map]; [|apply agree_raise, S]. specialize (Z M eq_refl).
  rewrite (nan_in_units k Uk M), (truth_in_units k Uk M).
  destruct (existsb dis_nan (List.concat M)) eqn:En; [apply agree_raise, S|]. rewrite (match_in_units laws k Uk rnd rnd' thr M Hs Hs' En).
  assert (S' : sim (if existsb dtruth (List.concat M) then set_min_distances thr M 0 objects s else s)
                   (if existsb dtruth (List.concat M) then set_min_distances (k thr) (map (map k) M) 0 objects s' else s'))
    by (destruct (existsb dtruth _); auto; apply sim_min, S).
  assert (Z' : sized M objects cands (if existsb dtruth (List.concat M) then set_min_distances thr M 0 objects s else s)).
  { destruct (existsb dtruth _); auto. intros a b x y H1 H2 H3. rewrite !min_conf. exact (Z a b x y H1 H2 H3). }
  set (t1 := if existsb dtruth (List.concat M) then _ else s) in *. set (t2 := if existsb dtruth (List.concat M) then _ else s') in *.
  clearbody t1 t2. destruct (match_dets_and_objs rnd thr M) as [[cis ois]|]; [|apply agree_raise, S'].
  destruct cis; [apply agree_ret, S'|]. apply sim_matches; auto.
Qed.
End Phase.
End Sim.

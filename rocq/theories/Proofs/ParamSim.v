(** C99: two runs with different bookkeeping parameters and label names. *)
From Coq Require Import ZArith Bool Arith String List Lia.
From Verif Require Import Model.Num Model.Base Model.Matching Model.Filter Model.Tracker Spec.CallSpec Spec.ExampleVideo Spec.LabelSpec Spec.UnitSpec
  Spec.ParamSpec Proofs.NumLaws Proofs.TrackerFrame Proofs.CallEffect Proofs.UnitSim Proofs.UnitRun.
Import ListNotations.

Section Sim.
Context {N : Num} {FO : filter_ops N}.
Notation st := (st FO).
Notation tobj := (tobj FO).
Notation det := (detection N).
Notation ct := (option (coord_transformation N)).
Variable name : label -> label.
Hypothesis Hname : forall a b, name a = name b -> a = b.
Variables c c' : tconf FO.
Hypothesis Hc : same_tracker name c c'.
Notation same_det := (ParamSpec.same_det name).
Notation seen_same d := (same_points_seen c c' d).

(** Everything that is equal. *)
Definition erase (o : tobj) : tobj :=
  let k := o_conf o in
  MkObj (MkOconf (oc_iid k) (oc_num_points k) (oc_dim_points k) (oc_hit_counter_max k) 0%Z (oc_delay k) n0 (oc_initial_period k) (oc_reid_max k) 0 LNone)
    (o_hit o) (o_reid o) (o_last_distance o) (o_min_distance o) (o_last_det o) (o_age o) (o_initializing o) (o_id o) (o_gid o) (o_once o) [] []
    (o_filter o) (o_abs_to_rel o).
Record orel (o o' : tobj) : Prop := MkORel {
  or_core : erase o = erase o';
  or_label : oc_label (o_conf o') = name (oc_label (o_conf o));
  or_thr : oc_det_thr (o_conf o) = tc_det_thr c /\ oc_det_thr (o_conf o') = tc_det_thr c';
  or_hits : List.length (o_point_hits o) = List.length (o_point_hits o')
}.
Variable used : nat -> Prop.
Variable base : nat.
Definition known_in (s : st) (i : nat) : Prop := 1 <= i <= s_icount s.
(** Past detections were given to the tracker and have an age. *)
Definition past_ok (s : st) : Prop := forall i r, known_in s i -> In r (o_past (s_store s i)) -> used r /\ d_age (s_heap s r) <> None.
Record sim (s s' : st) : Prop := MkSim {
  sm_heap : forall r, same_det (s_heap s r) (s_heap s' r);
  sm_seen : forall r, seen_same (s_heap s r);
  sm_obj : forall i, known_in s i -> orel (s_store s i) (s_store s' i);
  sm_past : past_ok s;
  sm_past' : past_ok s';
  sm_tracked : s_tracked s = s_tracked s';
  sm_known : Forall (known_in s) (s_tracked s);
  sm_count : s_count s = s_count s';
  sm_icount : s_icount s = s_icount s';
  sm_gcount : s_gcount s = s_gcount s';
  sm_base : base <= s_icount s
}.
Definition agree {A} (x x' : st * result A) : Prop := snd x = snd x' /\ sim (fst x) (fst x').

Lemma core_fields o o' : erase o = erase o' ->
  oc_iid (o_conf o) = oc_iid (o_conf o') /\ oc_num_points (o_conf o) = oc_num_points (o_conf o') /\ oc_dim_points (o_conf o) = oc_dim_points (o_conf o') /\
  oc_hit_counter_max (o_conf o) = oc_hit_counter_max (o_conf o') /\ oc_delay (o_conf o) = oc_delay (o_conf o') /\
  oc_initial_period (o_conf o) = oc_initial_period (o_conf o') /\ oc_reid_max (o_conf o) = oc_reid_max (o_conf o') /\
  o_hit o = o_hit o' /\ o_reid o = o_reid o' /\ o_last_distance o = o_last_distance o' /\ o_min_distance o = o_min_distance o' /\
  o_last_det o = o_last_det o' /\ o_age o = o_age o' /\ o_initializing o = o_initializing o' /\ o_id o = o_id o' /\ o_gid o = o_gid o' /\
  o_once o = o_once o' /\ o_filter o = o_filter o' /\ o_abs_to_rel o = o_abs_to_rel o'.
Proof. intros E. unfold erase in E. injection E. intros. repeat split; assumption. Qed.
Ltac core E := match type of E with erase ?a = erase ?b =>
  destruct a as [[] ? ? ? ? ? ? ? ? ? ? ? ? ? ?], b as [[] ? ? ? ? ? ? ? ? ? ? ? ? ? ?]; unfold erase in E; cbn in E; injection E; clear E; intros; subst end.
Lemma core_estimate o o' : erase o = erase o' -> estimate o' = estimate o /\ get_estimate o' true = get_estimate o true /\ estimate_velocity o' = estimate_velocity o.
Proof. intros E. core E. repeat split. Qed.
Lemma orel_same o o' : orel o o' -> same_object name o o'.
Proof.
  intros [A B _ _]. destruct (core_estimate o o' A) as (X & Y & Z). apply core_fields in A. split; auto; try (symmetry; tauto). split; symmetry; tauto.
Qed.

(** ** Primitive changes *)
Definition same_past (f : tobj -> tobj) : Prop := forall o, o_past (f o) = o_past o.
Lemma past_obj i f s : past_ok s -> same_past f -> past_ok (mod_obj i f s).
Proof. intros P F j r Hj Hr. cbn in *. unfold upd in Hr. destruct (Nat.eqb_spec j i) as [->|]; [rewrite F in Hr|]; apply (P _ _ Hj Hr). Qed.
Lemma past_age r a s : past_ok s -> past_ok (mod_det r (d_set_age a) s).
Proof.
  intros P j q Hj Hq. destruct (P j q Hj Hq) as [A B]. split; auto. cbn. unfold upd. destruct (Nat.eqb_spec q r); auto. cbn. discriminate.
Qed.
Lemma sim_obj i f f' s s' : sim s s' -> (orel (s_store s i) (s_store s' i) -> orel (f (s_store s i)) (f' (s_store s' i))) -> same_past f -> same_past f' ->
  sim (mod_obj i f s) (mod_obj i f' s').
Proof.
  intros [A B C D D1 E F G H I J] K P P'. split; cbn; auto; try (apply past_obj; auto).
  intros j Hj. unfold upd. destruct (Nat.eqb_spec j i) as [->|Hne]; auto.
Qed.
Lemma same_age (d d' : det) a : same_det d d' -> same_det (d_set_age a d) d'.
Proof. intros [A B C D E]. split; assumption. Qed.
Lemma same_age' (d d' : det) a : same_det d d' -> same_det d (d_set_age a d').
Proof. intros [A B C D E]. split; assumption. Qed.
(** Ages are free. *)
Lemma sim_age1 r a s s' : sim s s' -> sim (mod_det r (d_set_age a) s) s'.
Proof.
  intros [A B C D D1 E F G H I J]. split; cbn; auto; try (apply (past_age r a s D)); intros q; unfold upd; destruct (Nat.eqb_spec q r) as [->|]; auto;
    [apply same_age; auto|exact (B r)].
Qed.
Lemma sim_age2 r a s s' : sim s s' -> sim s (mod_det r (d_set_age a) s').
Proof.
  intros [A B C D D1 E F G H I J]. split; cbn; auto; try (apply (past_age r a s' D1)). intros q; unfold upd; destruct (Nat.eqb_spec q r) as [->|]; auto.
  apply same_age'; auto.
Qed.
Lemma sim_tracked l s s' : sim s s' -> Forall (known_in s) l -> sim (s_set_tracked l s) (s_set_tracked l s').
Proof. intros [A B C D D1 E F G H I J] K. split; cbn; auto. Qed.
Lemma orel_ids n g o o' : orel o o' -> orel (set_ids n g o) (set_ids n g o').
Proof. intros [A B C D]. split; cbn; auto. clear -A. core A. reflexivity. Qed.
Lemma sim_ids i s s' : known_in s i -> sim s s' -> sim (acquire_ids i s) (acquire_ids i s').
Proof.
  intros Hi S. unfold acquire_ids. rewrite (sm_count _ _ S), (sm_gcount _ _ S). apply sim_obj; [|apply orel_ids|intros ?; reflexivity|intros ?; reflexivity].
  destruct S as [A B C D D1 E F G H I J]. split; cbn; auto.
Qed.
(** The past of one of the two objects. *)
Lemma orel_past1 l o o' : orel o o' -> orel (set_past l o) o'.
Proof. intros [A B C D]. split; cbn; auto. Qed.
Lemma orel_past2 l o o' : orel o o' -> orel o (set_past l o').
Proof. intros [A B C D]. split; cbn; auto. Qed.
Lemma sim_past1 i l s s' : sim s s' -> (forall r, In r l -> used r /\ d_age (s_heap s r) <> None) -> sim (mod_obj i (set_past l) s) s'.
Proof.
  intros [A B C D D1 E F G H I J] K. split; cbn; auto.
  - intros j Hj. unfold upd. destruct (Nat.eqb_spec j i) as [->|Hne]; auto. apply orel_past1. auto.
  - intros j r Hj Hr. cbn in *. unfold upd in Hr. destruct (Nat.eqb_spec j i) as [->|]; [apply K, Hr|apply (D _ _ Hj Hr)].
Qed.
Lemma sim_past2 i l s s' : sim s s' -> (forall r, In r l -> used r /\ d_age (s_heap s' r) <> None) -> sim s (mod_obj i (set_past l) s').
Proof.
  intros [A B C D D1 E F G H I J] K. split; cbn; auto.
  - intros j Hj. unfold upd. destruct (Nat.eqb_spec j i) as [->|Hne]; auto. apply orel_past2. auto.
  - intros j r Hj Hr. cbn in *. unfold upd in Hr. destruct (Nat.eqb_spec j i) as [->|]; [apply K, Hr|apply (D1 _ _ Hj Hr)].
Qed.

(** ** Methods of objects *)
Lemma agree_ret {A} (a : A) s s' : sim s s' -> agree (s, Ret a) (s', Ret a).
Proof. intros S. split; auto. Qed.
Lemma agree_raise {A} e s s' : sim s s' -> agree (A:=A) (s, Raise e) (s', Raise e).
Proof. intros S. split; auto. Qed.

(** [_conditionally_add_to_past_detections] on one side does nothing that matters. *)
Definition other_past (i : nat) (s : st) (l : list nat) (r : nat) (a : Z) : st := mod_obj i (set_past l) (mod_det r (d_set_age a) s).
Lemma cond_add_cases i r (s : st) : past_ok s -> known_in s i -> used r -> exists t, cond_add_past i r s = (t, Ret tt) /\
  (t = s \/ exists l a, t = other_past i s l r a /\ forall q, In q l -> used q /\ d_age (s_heap (mod_det r (d_set_age a) s) q) <> None).
Proof.
  intros P Hi Hr. unfold cond_add_past. set (o := s_store s i). destruct (Nat.eqb_spec (oc_past_len (o_conf o)) 0) as [|Hl]; [eauto|].
  assert (Q : forall a l, (forall q, In q l -> In q (o_past o)) -> forall q, In q (l ++ [r]) -> used q /\ d_age (s_heap (mod_det r (d_set_age a) s) q) <> None).
  { intros a l Hin q Hq. cbn. unfold upd. destruct (Nat.eqb_spec q r) as [->|Hne]; [split; [auto|discriminate]|].
    apply in_app_iff in Hq as [Hq|[Hq|[]]]; [|congruence]. apply (P i q Hi), Hin, Hq. }
  destruct (Nat.ltb_spec (List.length (o_past o)) (oc_past_len (o_conf o))) as [L|L].
  - eexists. split; [reflexivity|]. right. exists (o_past o ++ [r]), (o_age o). split; [|apply Q; auto].
    unfold other_past, mod_obj, mod_det. cbn. reflexivity.
  - destruct (o_past o) as [|first rest] eqn:Ep; [cbn in L; lia|]. destruct (P i first Hi) as [_ Ha]; [fold o; rewrite Ep; left; reflexivity|].
    destruct (d_age (s_heap s first)) as [a|]; [|congruence]. destruct (a * Z.of_nat (oc_past_len (o_conf o)) <=? o_age o)%Z; [|eauto].
    eexists. split; [reflexivity|]. right. exists (rest ++ [r]), (o_age o). split; [reflexivity|]. apply Q. intros q Hq. right. exact Hq.
Qed.
Lemma sim_cond_add i r s s' : known_in s i -> used r -> sim s s' -> exists t t', cond_add_past i r s = (t, Ret tt) /\ cond_add_past i r s' = (t', Ret tt) /\ sim t t' /\
  s_icount t = s_icount s.
Proof.
  intros Hi Hr S. assert (Hi' : known_in s' i) by (unfold known_in; rewrite <- (sm_icount _ _ S); exact Hi).
  destruct (cond_add_cases i r s (sm_past _ _ S) Hi Hr) as (t & E & T). destruct (cond_add_cases i r s' (sm_past' _ _ S) Hi' Hr) as (t' & E' & T').
  exists t, t'. split; [exact E|]. split; [exact E'|].
  assert (S1 : sim t s' /\ s_icount t = s_icount s).
  { destruct T as [->|(l & a & -> & Q)]; [auto|]. split; [|reflexivity]. apply sim_past1; [apply sim_age1, S|exact Q]. }
  destruct S1 as [S1 I1]. split; [|exact I1]. destruct T' as [->|(l & a & -> & Q)]; [exact S1|]. apply sim_past2; [apply sim_age2, S1|exact Q].
Qed.
Lemma over_same n (d d' : det) : same_det d d' -> seen_same d -> over_threshold (tc_det_thr c') n d' = over_threshold (tc_det_thr c) n d.
Proof.
  intros [_ E _ _ _] H. unfold over_threshold. rewrite E. unfold same_points_seen in H. destruct (d_scores d) as [sc|]; auto. apply map_ext_in, H.
Qed.
Lemma mul_len {A} (f : bool -> A -> A) : forall m (l : list A), List.length (map2 f m l) = min (List.length m) (List.length l).
Proof. intros m l. unfold map2. rewrite map_length. apply combine_length. Qed.
Lemma hits_length p pm mask l : List.length (point_hits_update p pm mask l) = min (List.length mask) (List.length l).
Proof. unfold point_hits_update. rewrite !map_length. apply mul_len. Qed.
Lemma orel_simple (f : tobj -> tobj) o o' : orel o o' -> (forall o o', erase o = erase o' -> erase (f o) = erase (f o')) ->
  (forall o, o_conf (f o) = o_conf o /\ o_point_hits (f o) = o_point_hits o) -> orel (f o) (f o').
Proof. intros [A B C D] F G. destruct (G o) as [X1 X2], (G o') as [Y1 Y2]. split; rewrite ?X1, ?X2, ?Y1, ?Y2; auto. Qed.
Ltac simple_ := intros; match goal with H : orel _ _ |- _ => first [apply orel_simple; [exact H|clear; intros ? ? E; core E; reflexivity|intros; split; reflexivity]] end.

Lemma sim_hit i r p s s' : known_in s i -> used r -> sim s s' -> agree (hit i r p s) (hit i r p s').
Proof.
  intros Hi Hr S. unfold hit. destruct (sim_cond_add i r s s' Hi Hr S) as (t & t' & -> & -> & S0 & I0).
  assert (H0 : known_in t i) by (unfold known_in; rewrite I0; exact Hi). clear S Hi I0 s s'.
  assert (S1 : sim (mod_obj i (set_last_det r) t) (mod_obj i (set_last_det r) t')).
  { apply sim_obj; auto; try (intros ?; reflexivity). intros O. simple_. }
  assert (H1 : known_in (mod_obj i (set_last_det r) t) i) by exact H0.
  set (a1 := mod_obj i (set_last_det r) t) in *. set (a2 := mod_obj i (set_last_det r) t') in *. clearbody a1 a2. clear S0 H0 t t'.
  assert (S2 : sim (mod_obj i (fun o => set_hit (Z.min (o_hit o + 2 * p) (oc_hit_counter_max (o_conf o))) o) a1)
                   (mod_obj i (fun o => set_hit (Z.min (o_hit o + 2 * p) (oc_hit_counter_max (o_conf o))) o) a2)).
  { apply sim_obj; auto; try (intros ?; reflexivity). intros O.
    apply (orel_simple (fun o => set_hit (Z.min (o_hit o + 2 * p) (oc_hit_counter_max (o_conf o))) o)); auto. clear. intros o o' E. core E. reflexivity. }
  assert (H2 : known_in (mod_obj i (fun o => set_hit (Z.min (o_hit o + 2 * p) (oc_hit_counter_max (o_conf o))) o) a1) i) by exact H1.
  set (b1 := mod_obj i _ a1) in *. set (b2 := mod_obj i _ a2) in *. clearbody b1 b2. clear S1 H1 a1 a2.
  destruct (core_fields _ _ (or_core _ _ (sm_obj _ _ S2 i H2))) as (_ & _ & _ & _ & E5 & _ & _ & E8 & _ & _ & _ & _ & _ & E14 & _).
  rewrite <- E5, <- E8, <- E14.
  set (cnd := (o_initializing (s_store b1 i) && (oc_delay (o_conf (s_store b1 i)) <? o_hit (s_store b1 i))%Z)%bool).
  assert (S3 : sim (if cnd then acquire_ids i (mod_obj i (set_initializing false) b1) else b1)
                   (if cnd then acquire_ids i (mod_obj i (set_initializing false) b2) else b2)).
  { destruct cnd; auto. apply sim_ids; [exact H2|]. apply sim_obj; auto; try (intros ?; reflexivity). intros O. simple_. }
  assert (H3 : known_in (if cnd then acquire_ids i (mod_obj i (set_initializing false) b1) else b1) i) by (destruct cnd; exact H2).
  set (c1 := if cnd then acquire_ids i (mod_obj i (set_initializing false) b1) else b1) in *.
  set (c2 := if cnd then acquire_ids i (mod_obj i (set_initializing false) b2) else b2) in *.
  clearbody c1 c2. clear S2 E5 E8 E14 H2 cnd b1 b2. pose proof (sm_obj _ _ S3 i H3) as OR.
  destruct (core_fields _ _ (or_core _ _ OR)) as (_ & E2 & E3 & _ & _ & _ & _ & _ & _ & _ & _ & _ & _ & _ & _ & _ & E17 & E18 & _).
  assert (Ed : dim_z (s_store c1 i) = dim_z (s_store c2 i)) by (unfold dim_z; rewrite E2, E3; reflexivity).
  destruct (or_thr _ _ OR) as [T1 T2]. rewrite T1, T2. pose proof (sm_heap _ _ S3 r) as Sd.
  rewrite <- E2, <- E3, <- Ed, <- E17. rewrite (over_same _ _ _ Sd (sm_seen _ _ S3 r)), (sd_scores _ _ _ Sd), (sd_absolute _ _ _ Sd), <- (or_hits _ _ OR).
  set (mask := over_threshold _ _ (s_heap c1 r)).
  set (counted := match d_scores (s_heap c1 r) with Some _ => mask | None => _ end).
  set (z := flatten (d_absolute_points (s_heap c1 r))).
  destruct (negb (Nat.eqb (List.length counted) _)); [apply agree_raise, S3|].
  assert (S4 : sim (mod_obj i (fun o => set_point_hits (point_hits_update p (oc_pointwise_max (o_conf o)) counted (o_point_hits o)) o) c1)
                   (mod_obj i (fun o => set_point_hits (point_hits_update p (oc_pointwise_max (o_conf o)) counted (o_point_hits o)) o) c2)).
  { apply sim_obj; auto; try (intros ?; reflexivity). intros [A B C D]. split; cbn; auto. rewrite !hits_length, D. reflexivity. }
  set (x1 := mod_obj i _ c1) in *. set (x2 := mod_obj i _ c2) in *. clearbody x1 x2.
  destruct (negb _ || negb _)%bool; [apply agree_raise, S4|]. set (diagonal := repeat_each _ _).
  assert (S5 : sim (mod_obj i (fun o => set_filter (f_update FO (o_filter o) z diagonal) o) x1)
                   (mod_obj i (fun o => set_filter (f_update FO (o_filter o) z diagonal) o) x2)).
  { apply sim_obj; auto; try (intros ?; reflexivity). intros O.
    apply (orel_simple (fun o => set_filter (f_update FO (o_filter o) z diagonal) o)); auto. clear. intros o o' E. core E. reflexivity. }
  set (y1 := mod_obj i _ x1) in *. set (y2 := mod_obj i _ x2) in *. clearbody y1 y2.
  destruct (negb (Nat.eqb (List.length (o_once _)) _)); [apply agree_raise, S5|]. apply agree_ret.
  apply sim_obj; try (intros ?; reflexivity).
  - apply sim_obj; auto; try (intros ?; reflexivity). intros O.
    match goal with |- orel (set_filter (f_set_x FO _ (reset_first_detected ?d _ ?m _ ?zz _)) _) _ =>
      apply (orel_simple (fun o => set_filter (f_set_x FO (o_filter o) (reset_first_detected d (dim_z o) m (o_once o) zz (f_x FO (o_filter o)))) o)); auto end.
    clear. intros o o' E. core E. reflexivity.
  - intros O. match goal with |- orel (set_once (?f _ ?m) _) _ => apply (orel_simple (fun o => set_once (f (o_once o) m) o)); auto end.
    clear. intros o o' E. core E. reflexivity.
Qed.
Definition act (i : nat) : Prop := 1 <= i <= base.
Lemma act_known s s' i : sim s s' -> act i -> known_in s i.
Proof. intros S [A B]. pose proof (sm_base _ _ S). split; lia. Qed.

(** [merge] *)
Lemma add_pasts1 i rs : forall s s', sim s s' -> known_in s i -> (forall r, In r rs -> used r) ->
  exists t, add_pasts i rs s = (t, Ret tt) /\ sim t s' /\ s_icount t = s_icount s.
Proof.
  induction rs as [|r rs IH]; intros s s' S Hi U; cbn [add_pasts]; [eauto|].
  destruct (cond_add_cases i r s (sm_past _ _ S) Hi (U r (or_introl eq_refl))) as (t & E & T). rewrite E.
  assert (S1 : sim t s' /\ s_icount t = s_icount s).
  { destruct T as [->|(l & a & -> & Q)]; [auto|]. split; [|reflexivity]. apply sim_past1; [apply sim_age1, S|exact Q]. }
  destruct S1 as [S1 I1]. destruct (IH t s' S1) as (t2 & E2 & S2 & I2); [unfold known_in; rewrite I1; exact Hi|intros q Hq; apply U; right; exact Hq|].
  exists t2. rewrite I2, I1. auto.
Qed.
Lemma add_pasts2 i rs : forall s s', sim s s' -> known_in s' i -> (forall r, In r rs -> used r) ->
  exists t, add_pasts i rs s' = (t, Ret tt) /\ sim s t.
Proof.
  induction rs as [|r rs IH]; intros s s' S Hi U; cbn [add_pasts]; [eauto|].
  destruct (cond_add_cases i r s' (sm_past' _ _ S) Hi (U r (or_introl eq_refl))) as (t & E & T). rewrite E.
  assert (S1 : sim s t /\ s_icount t = s_icount s').
  { destruct T as [->|(l & a & -> & Q)]; [auto|]. split; [|reflexivity]. apply sim_past2; [apply sim_age2, S|exact Q]. }
  destruct S1 as [S1 I1]. apply (IH s t S1); [unfold known_in; rewrite I1; exact Hi|intros q Hq; apply U; right; exact Hq].
Qed.
Lemma sim_merge i j s s' : act i -> act j -> sim s s' -> agree (merge i j s) (merge i j s').
Proof.
  intros Hi Hj S. unfold merge. pose proof (act_known _ _ _ S Hi) as Ki. pose proof (act_known _ _ _ S Hj) as Kj. pose proof (sm_obj _ _ S j Kj) as OJ.
  assert (Kj' : known_in s' j) by (unfold known_in; rewrite <- (sm_icount _ _ S); exact Kj).
  assert (Ki' : known_in s' i) by (unfold known_in; rewrite <- (sm_icount _ _ S); exact Ki).
  set (f := fun (c : tobj) (o : tobj) => set_filter (o_filter c) (set_once (o_once c) (set_last_det (o_last_det c) (set_min_distance (o_min_distance c)
     (set_last_distance (o_last_distance c) (set_point_hits (o_point_hits c) (set_hit (oc_initial_period (o_conf o) * 2)%Z (set_reid None o)))))))).
  change (agree (add_pasts i (o_past (s_store s j)) (mod_obj i (f (s_store s j)) s)) (add_pasts i (o_past (s_store s' j)) (mod_obj i (f (s_store s' j)) s'))).
  assert (S1 : sim (mod_obj i (f (s_store s j)) s) (mod_obj i (f (s_store s' j)) s')).
  { apply sim_obj; auto; try (intros ?; reflexivity). intros [A B C D]. destruct OJ as [A' B' C' D'].
    set (c1 := s_store s j) in *. set (c2 := s_store s' j) in *. set (o1 := s_store s i) in *. set (o2 := s_store s' i) in *. clearbody c1 c2 o1 o2.
    split; cbn; auto. clear -A A'. core A. core A'. reflexivity. }
  destruct (add_pasts1 i (o_past (s_store s j)) _ _ S1 Ki) as (t & -> & S2 & _); [intros r Hr; apply (sm_past _ _ S j r Kj Hr)|].
  destruct (add_pasts2 i (o_past (s_store s' j)) _ _ S2 Ki') as (t' & -> & S3); [intros r Hr; apply (sm_past' _ _ S j r Kj' Hr)|].
  apply agree_ret, S3.
Qed.

(** ** Distances *)
Definition cand_ok (x : cand) : Prop := match x with CDet r => used r | CObj i => act i end.
Lemma view_obj_same s s' i : sim s s' -> act i -> same_view name (view_obj s i) (view_obj s' i).
Proof.
  intros S Hi. pose proof (sm_obj _ _ S i (act_known _ _ _ S Hi)) as O. split; cbn [v_obj v_last view_obj]; [apply orel_same, O|].
  rewrite (so_last_det _ _ _ (orel_same _ _ O)). apply (sm_heap _ _ S).
Qed.
Lemma view_cand_same s s' x : sim s s' -> cand_ok x -> same_cand name (view_cand s x) (view_cand s' x).
Proof. intros S Hx. destruct x as [r|j]; cbn; [apply (sm_heap _ _ S)|apply view_obj_same; auto]. Qed.
Lemma obj_label_same s s' i : sim s s' -> act i -> obj_label s' i = name (obj_label s i).
Proof. intros S Hi. apply (or_label _ _ (sm_obj _ _ S i (act_known _ _ _ S Hi))). Qed.
Lemma cand_label_same s s' x : sim s s' -> cand_ok x -> cand_label s' x = name (cand_label s x).
Proof. intros S Hx. destruct x as [r|j]; cbn; [apply (sd_label _ _ _ (sm_heap _ _ S r))|]. apply (obj_label_same s s' j S Hx). Qed.
Lemma label_eqb_name a b : label_eqb (name a) (name b) = label_eqb a b.
Proof.
  destruct (label_eqb a b) eqn:E; [apply label_eqb_eq in E; subst; apply label_eqb_eq; reflexivity|].
  destruct (label_eqb (name a) (name b)) eqn:E'; auto. apply label_eqb_eq, Hname in E'. subst. rewrite (proj2 (label_eqb_eq b b) eq_refl) in E. discriminate.
Qed.
Lemma map_result_ext {A B} (f f' : A -> result B) l : (forall x, In x l -> f' x = f x) -> map_result f' l = map_result f l.
Proof.
  induction l as [|a l IH]; intros H; cbn; auto. rewrite (H a (or_introl eq_refl)), IH by (intros x Hx; apply H; right; exact Hx). reflexivity.
Qed.
Lemma scalar_same rnd f f' s s' objects cands : same_values name f f' -> sim s s' -> Forall act objects -> Forall cand_ok cands ->
  scalar_distances rnd f' s' objects cands = scalar_distances rnd f s objects cands.
Proof.
  intros Hf S Fo Fc. rewrite Forall_forall in Fo, Fc. unfold scalar_distances. apply map_result_ext. intros x Hx. apply map_result_ext. intros i Hi.
  rewrite (cand_label_same s s' x S (Fc x Hx)), (obj_label_same s s' i S (Fo i Hi)), label_eqb_name. destruct (negb _); auto.
  rewrite (Hf _ _ _ _ (view_cand_same s s' x S (Fc x Hx)) (view_obj_same s s' i S (Fo i Hi))). reflexivity.
Qed.
Lemma vector_same s s' x : sim s s' -> cand_ok x -> cand_vector s' x = cand_vector s x.
Proof.
  intros S Hx. destruct x as [r|j]; cbn; [rewrite (sd_points _ _ _ (sm_heap _ _ S r)); reflexivity|].
  rewrite (so_estimate _ _ _ (orel_same _ _ (sm_obj _ _ S j (act_known _ _ _ S Hx)))). reflexivity.
Qed.
Lemma vector_loop_same rnd f s s' objects cands : (forall l, name l = l) -> sim s s' -> Forall act objects -> Forall cand_ok cands ->
  forall labels M, vectorized_loop rnd f s' objects cands labels M = vectorized_loop rnd f s objects cands labels M.
Proof.
  intros Hn S Fo Fc. rewrite Forall_forall in Fo, Fc. induction labels as [|l labels IH]; intros M; cbn [vectorized_loop]; [reflexivity|].
  assert (L1 : forall i, In i objects -> obj_label s' i = obj_label s i) by (intros i Hi; rewrite (obj_label_same s s' i S (Fo i Hi)); apply Hn).
  assert (L2 : forall i, In i cands -> cand_label s' i = cand_label s i) by (intros i Hi; rewrite (cand_label_same s s' i S (Fc i Hi)); apply Hn).
  assert (E1 : map (fun i => String.eqb (label_str (obj_label s' i)) l) objects = map (fun i => String.eqb (label_str (obj_label s i)) l) objects)
    by (apply map_ext_in; intros i Hi; rewrite (L1 i Hi); reflexivity).
  assert (E2 : map (fun c => String.eqb (label_str (cand_label s' c)) l) cands = map (fun c => String.eqb (label_str (cand_label s c)) l) cands)
    by (apply map_ext_in; intros i Hi; rewrite (L2 i Hi); reflexivity).
  assert (E3 : filter (fun i => String.eqb (label_str (obj_label s' i)) l) objects = filter (fun i => String.eqb (label_str (obj_label s i)) l) objects)
    by (apply filter_ext_in; intros i Hi; rewrite (L1 i Hi); reflexivity).
  assert (E4 : filter (fun c => String.eqb (label_str (cand_label s' c)) l) cands = filter (fun c => String.eqb (label_str (cand_label s c)) l) cands)
    by (apply filter_ext_in; intros i Hi; rewrite (L2 i Hi); reflexivity).
  rewrite E1, E2, E3, E4. set (objs := filter _ objects). set (cs := filter _ cands).
  assert (P : map (cand_vector s') cs = map (cand_vector s) cs).
  { apply map_ext_in. intros x Hx. apply vector_same; auto. apply filter_In in Hx. apply Fc, Hx. }
  assert (Q : map (fun i => flatten (estimate (s_store s' i))) objs = map (fun i => flatten (estimate (s_store s i))) objs).
  { apply map_ext_in. intros i Hi. apply (vector_same s s' (CObj i) S). apply filter_In in Hi. apply Fo, Hi. }
  rewrite P, Q. destruct (stack _); auto. destruct (stack _); auto. destruct (f _ _); auto. destruct (_ && _)%bool; auto.
Qed.
Definition distance_same (d d' : distance FO) : Prop :=
  match d, d' with
  | ScalarDistance f, ScalarDistance f' => same_values name f f'
  | VectorizedDistance f, VectorizedDistance f' => f' = f /\ forall l, name l = l
  | _, _ => False
  end.
Lemma distances_same rnd d d' s s' objects cands : distance_same d d' -> sim s s' -> Forall act objects -> Forall cand_ok cands ->
  get_distances rnd d' s' objects cands = get_distances rnd d s objects cands.
Proof.
  intros Hd S Fo Fc. destruct d as [f|f], d' as [f'|f']; cbn in *; try contradiction; [apply scalar_same; auto|]. destruct Hd as [-> Hn]. unfold vectorized_distances.
  assert (E1 : map (fun i => label_str (obj_label s' i)) objects = map (fun i => label_str (obj_label s i)) objects).
  { apply map_ext_in. intros i Hi. rewrite Forall_forall in Fo. rewrite (obj_label_same s s' i S (Fo i Hi)), Hn. reflexivity. }
  assert (E2 : map (fun c => label_str (cand_label s' c)) cands = map (fun c => label_str (cand_label s c)) cands).
  { apply map_ext_in. intros i Hi. rewrite Forall_forall in Fc. rewrite (cand_label_same s s' i S (Fc i Hi)), Hn. reflexivity. }
  rewrite E1, E2. destruct objects as [|o objects]; auto. destruct cands as [|x cands]; auto. apply vector_loop_same; auto.
Qed.

(** ** The association *)
Lemma sim_min thr M objects : forall j s s', sim s s' -> sim (set_min_distances thr M j objects s) (set_min_distances thr M j objects s').
Proof.
  induction objects as [|i objects IH]; intros j s s' S; cbn; auto. apply IH. apply sim_obj; auto; try (intros ?; reflexivity). intros O. simple_.
Qed.
Lemma sim_matches thr M objects cands p pairs : Forall act objects -> Forall cand_ok cands ->
  forall uc mo uo s s', sim s s' ->
  agree (apply_matches thr M objects cands p pairs uc mo uo s) (apply_matches thr M objects cands p pairs uc mo uo s').
Proof.
  intros Fo Fc. rewrite Forall_forall in Fo, Fc. induction pairs as [|[ci oi] pairs IH]; intros uc mo uo s s' S; [apply agree_ret, S|].
  cbn [apply_matches]. destruct (nth_error cands ci) as [x|] eqn:Ec; [|apply agree_raise, S].
  destruct (nth_error objects oi) as [i|] eqn:Ei; [|apply agree_raise, S].
  apply nth_error_In in Ec, Ei. apply Fc in Ec. apply Fo in Ei.
  destruct (dltb _ thr) eqn:El; [|apply IH; auto]. destruct x as [r|j]; cbn in Ec.
  - pose proof (sim_hit i r p s s' (act_known _ _ _ S Ei) Ec S) as [E S'].
    destruct (hit i r p s) as [t1 [u1|e1]], (hit i r p s') as [t2 [u2|e2]]; cbn [fst snd] in E, S'; try discriminate.
    + apply IH. apply sim_obj; auto; try (intros ?; reflexivity). intros O. simple_.
    + injection E as ->. apply agree_raise, S'.
  - pose proof (sim_merge i j s s' Ei Ec S) as [E S'].
    destruct (merge i j s) as [t1 [u1|e1]], (merge i j s') as [t2 [u2|e2]]; cbn [fst snd] in E, S'; try discriminate.
    + rewrite <- (sm_tracked _ _ S'). destruct (existsb _ _); [|apply agree_raise, S'].
      apply IH. apply sim_tracked; auto. apply remove_first_Forall, (sm_known _ _ S').
    + injection E as ->. apply agree_raise, S'.
Qed.
Lemma sim_phase rnd thr d d' objects cands p s s' : distance_same d d' -> Forall act objects -> Forall cand_ok cands -> sim s s' ->
  agree (update_objects_in_place rnd d thr objects cands p s) (update_objects_in_place rnd d' thr objects cands p s').
Proof.
  intros Hd Fo Fc S. unfold update_objects_in_place. destruct cands as [|c0 cands0]; [apply agree_ret, S|].
  set (cands := c0 :: cands0) in *. clearbody cands. rewrite (distances_same rnd d d' s s' objects cands Hd S Fo Fc).
  destruct (get_distances rnd d s objects cands) as [M|e]; [|apply agree_raise, S].
  destruct (existsb dis_nan (List.concat M)) eqn:En; [apply agree_raise, S|].
  assert (S' : sim (if existsb dtruth (List.concat M) then set_min_distances thr M 0 objects s else s)
                   (if existsb dtruth (List.concat M) then set_min_distances thr M 0 objects s' else s'))
    by (destruct (existsb dtruth _); auto; apply sim_min, S).
  set (t1 := if existsb dtruth (List.concat M) then _ else s) in *. set (t2 := if existsb dtruth (List.concat M) then _ else s') in *.
  clearbody t1 t2. destruct (match_dets_and_objs rnd thr M) as [[cis ois]|]; [|apply agree_raise, S'].
  destruct cis; [apply agree_ret, S'|]. apply sim_matches; auto.
Qed.

(** ** Whole calls *)
Variable T : ct.
Lemma sim_create r p s s' : sim s s' -> used r -> sim (create_object c r p T s) (create_object c' r p T s').
Proof.
  intros HS Hr. unfold create_object. destruct (st_counters _ _ _ Hc) as (C1 & C2 & C3). rewrite C1, C2, C3.
  pose proof (sm_heap _ _ HS r) as Sd. rewrite (sd_absolute _ _ _ Sd), (sd_label _ _ _ Sd), (over_same _ _ _ Sd (sm_seen _ _ HS r)).
  set (d := s_heap s r) in *. set (once := over_threshold _ _ d). rewrite <- (sm_icount _ _ HS).
  set (k1 := MkOconf _ _ _ _ _ _ (tc_det_thr c) _ _ _ _). set (k2 := MkOconf _ _ _ _ _ _ (tc_det_thr c') _ _ _ _). set (iid := S (s_icount s)).
  set (o1 := MkObj k1 p None None None r 0%Z (p <=? tc_delay c)%Z None None once _ _ _ _).
  set (o2 := MkObj k2 p None None None r 0%Z (p <=? tc_delay c)%Z None None once _ _ _ _).
  assert (Hor : orel o1 o2) by (split; cbn; auto).
  assert (Ho1 : forall q, In q (o_past o1) -> q = r) by (intros q; unfold o1; cbn [o_past]; destruct (Nat.ltb 0 _); cbn; intuition).
  assert (Ho2 : forall q, In q (o_past o2) -> q = r) by (intros q; unfold o2; cbn [o_past]; destruct (Nat.ltb 0 (tc_past_len c')); intros Hq; [destruct Hq as [Hq|[]]; auto|destruct Hq]).
  (* ages first *)
  set (w1 := mod_det r (d_set_age 0) s). set (w2 := mod_det r (d_set_age 0) s').
  assert (SW : sim w1 w2) by (apply sim_age1, sim_age2, HS).
  assert (S1 : sim (MkSt (s_heap w1) (s_gcount s) (upd (s_store s) iid o1) (s_tracked s) (s_count s) iid)
                   (MkSt (s_heap w2) (s_gcount s') (upd (s_store s') iid o2) (s_tracked s') (s_count s') iid)).
  { destruct SW as [A B C D D1 E F G H I J]. cbn in *. split; cbn; auto.
    - intros i [Hi1 Hi2]. cbn in Hi2. unfold upd. destruct (Nat.eqb_spec i iid) as [->|Hne]; auto. apply C. split; cbn; lia.
    - intros i q [Hi1 Hi2] Hq. cbn in *. unfold upd at 1 in Hq. destruct (Nat.eqb_spec i iid) as [->|Hne].
      + apply Ho1 in Hq. subst q. split; auto. unfold upd. rewrite Nat.eqb_refl. discriminate.
      + apply (D i q); auto. split; cbn; lia.
    - intros i q [Hi1 Hi2] Hq. cbn in *. unfold upd at 1 in Hq. destruct (Nat.eqb_spec i iid) as [->|Hne].
      + apply Ho2 in Hq. subst q. split; auto. unfold upd. rewrite Nat.eqb_refl. discriminate.
      + apply (D1 i q); auto. split; cbn; unfold iid in *; lia.
    - eapply Forall_impl; [|exact F]. intros i [X Y]. cbn in Y. split; cbn; unfold iid; lia.
    - unfold iid. lia. }
  set (x1 := MkSt (s_heap w1) _ _ _ _ _) in *. set (x2 := MkSt (s_heap w2) _ _ _ _ _) in *.
  assert (Hk : known_in x1 iid) by (unfold x1, iid; split; cbn; lia).
  assert (S2 : sim (if (p <=? tc_delay c)%Z then x1 else acquire_ids iid x1) (if (p <=? tc_delay c)%Z then x2 else acquire_ids iid x2))
    by (destruct (Z.leb p _); auto; apply sim_ids; auto).
  assert (Y1 : mod_det r (d_set_age 0) (if (p <=? tc_delay c)%Z then MkSt (s_heap s) (s_gcount s) (upd (s_store s) iid o1) (s_tracked s) (s_count s) iid
      else acquire_ids iid (MkSt (s_heap s) (s_gcount s) (upd (s_store s) iid o1) (s_tracked s) (s_count s) iid)) =
      if (p <=? tc_delay c)%Z then x1 else acquire_ids iid x1) by (destruct (Z.leb p _); reflexivity).
  assert (Y2 : mod_det r (d_set_age 0) (if (p <=? tc_delay c)%Z then MkSt (s_heap s') (s_gcount s') (upd (s_store s') iid o2) (s_tracked s') (s_count s') iid
      else acquire_ids iid (MkSt (s_heap s') (s_gcount s') (upd (s_store s') iid o2) (s_tracked s') (s_count s') iid)) =
      if (p <=? tc_delay c)%Z then x2 else acquire_ids iid x2) by (destruct (Z.leb p _); reflexivity).
  rewrite Y1, Y2. set (y1 := if (p <=? tc_delay c)%Z then x1 else _) in *. set (y2 := if (p <=? tc_delay c)%Z then x2 else _) in *.
  assert (Hk2 : known_in y1 iid) by (unfold y1; destruct (Z.leb p _); exact Hk). clearbody y1 y2.
  rewrite <- (sm_tracked _ _ S2). apply sim_tracked; auto. apply Forall_app. split; [exact (sm_known _ _ S2)|]. constructor; auto.
Qed.
Lemma sim_creates cands p : Forall cand_ok cands -> forall s s', sim s s' -> agree (create_objects c cands p T s) (create_objects c' cands p T s').
Proof.
  induction 1 as [|x cands Hx _ IH]; intros s s' S; cbn; [apply agree_ret, S|]. destruct x as [r|j]; [|apply agree_raise, S]. apply IH. apply sim_create; auto.
Qed.
Lemma filter_same s s' (f : tobj -> bool) l : sim s s' -> (forall o o', erase o = erase o' -> f o = f o') -> Forall (known_in s) l ->
  filter (fun i => f (s_store s' i)) l = filter (fun i => f (s_store s i)) l.
Proof.
  intros S Hf K. rewrite Forall_forall in K. apply filter_ext_in. intros i Hi. symmetry. apply Hf. exact (or_core _ _ (sm_obj _ _ S i (K i Hi))).
Qed.
Lemma active_same s s' : sim s s' -> get_active_objects s' = get_active_objects s.
Proof.
  intros S. unfold get_active_objects. rewrite <- (sm_tracked _ _ S). apply filter_same; auto; [|exact (sm_known _ _ S)].
  intros o o' E. core E. reflexivity.
Qed.
Lemma sim_reid objects matched p s s' : Forall act objects -> Forall act matched -> sim s s' -> agree (reid_phase c objects matched p s) (reid_phase c' objects matched p s').
Proof.
  intros Fo Fm S. unfold reid_phase. pose proof (st_reid _ _ _ Hc) as CR. destruct (st_thresholds _ _ _ Hc) as (_ & E2 & E3). rewrite E2, E3.
  destruct (tc_reid_distance c) as [f|], (tc_reid_distance c') as [f'|]; try contradiction; [|apply agree_ret, S].
  assert (Fm' : Forall cand_ok (map CObj matched)) by (rewrite Forall_map; exact Fm).
  pose proof (sim_phase (tc_rnd c) (tc_reid_threshold c) (ScalarDistance f) (ScalarDistance f') objects (map CObj matched) p s s' CR Fo Fm' S) as [E X].
  destruct (update_objects_in_place (tc_rnd c) (ScalarDistance f) _ _ _ p s) as [w1 [x1|e1]];
  destruct (update_objects_in_place (tc_rnd c) (ScalarDistance f') _ _ _ p s') as [w2 [x2|e2]]; cbn [fst snd] in E, X; try discriminate;
    [apply agree_ret, X|injection E as ->; apply agree_raise, X].
Qed.
Lemma sim_main objects cands p s s' : Forall act objects -> Forall cand_ok cands -> sim s s' ->
  agree (update_objects_in_place (tc_rnd c) (tc_distance c) (tc_threshold c) objects cands p s)
        (update_objects_in_place (tc_rnd c') (tc_distance c') (tc_threshold c') objects cands p s').
Proof.
  intros Fo Fc S. destruct (st_thresholds _ _ _ Hc) as (E1 & _ & E3). rewrite E1, E3. apply sim_phase; auto. exact (st_distance _ _ _ Hc).
Qed.
Lemma sim_associate alive dead dets p s s' : Forall act alive -> Forall act dead -> Forall used dets -> sim s s' ->
  agree (associate c alive dead dets p T s) (associate c' alive dead dets p T s').
Proof.
  intros Fa Fd Fu S. unfold associate.
  assert (Fk : forall t t' : st, sim t t' -> Forall (known_in t) alive) by (intros t t' St; eapply Forall_impl; [|exact Fa]; intros i; apply (act_known _ _ _ St)).
  rewrite (filter_same s s' (fun o => negb (o_initializing o)) alive S) by (eauto; intros o o' E; core E; reflexivity).
  assert (Fdets : Forall cand_ok (map CDet dets)) by (rewrite Forall_map; exact Fu).
  match goal with |- context [update_objects_in_place (tc_rnd c) (tc_distance c) ?thr ?obs ?cs p s] =>
    pose proof (sim_main obs cs p s s' (Forall_incl _ _ _ (filter_incl' _ _) Fa) Fdets S) as [E S'];
    destruct (update_objects_in_place (tc_rnd c) (tc_distance c) thr obs cs p s) as [t1 [[[um1 mo1] ui1]|e1]] eqn:U1;
    destruct (update_objects_in_place (tc_rnd c') (tc_distance c') (tc_threshold c') obs cs p s') as [t2 [[[um2 mo2] ui2]|e2]] eqn:U2;
    cbn [fst snd] in E, S'; try discriminate; injection E; clear E; intros; subst; [|apply agree_raise, S'] end.
  apply uip_unmatched_incl in U1 as (_ & Iui & Ium). clear U2.
  assert (Fum : Forall cand_ok um2) by (eapply Forall_incl; eauto).
  assert (Fui : Forall act ui2) by (eapply Forall_incl; [exact Iui|eapply Forall_incl; [apply filter_incl'|exact Fa]]).
  rewrite (filter_same t1 t2 (fun o => o_initializing o) alive S') by (eauto; intros o o' E; core E; reflexivity).
  match goal with |- context [update_objects_in_place (tc_rnd c) (tc_distance c) ?thr ?obs ?cs p t1] =>
    pose proof (sim_main obs cs p t1 t2 (Forall_incl _ _ _ (filter_incl' _ _) Fa) Fum S') as [E S''];
    destruct (update_objects_in_place (tc_rnd c) (tc_distance c) thr obs cs p t1) as [v1 [[[vm1 vo1] vi1]|e1]] eqn:V1;
    destruct (update_objects_in_place (tc_rnd c') (tc_distance c') (tc_threshold c') obs cs p t2) as [v2 [[[vm2 vo2] vi2]|e2]] eqn:V2;
    cbn [fst snd] in E, S''; try discriminate; injection E; clear E; intros; subst; [|apply agree_raise, S''] end.
  apply uip_unmatched_incl in V1 as (Ivo & _ & Ivm). clear V2.
  assert (Fvo : Forall act vo2) by (eapply Forall_incl; [exact Ivo|eapply Forall_incl; [apply filter_incl'|exact Fa]]).
  assert (Fvm : Forall cand_ok vm2) by (eapply Forall_incl; eauto).
  assert (Q : agree (reid_phase c (ui2 ++ dead) vo2 p v1) (reid_phase c' (ui2 ++ dead) vo2 p v2)) by (apply sim_reid; auto; apply Forall_app; auto).
  destruct Q as [E Q]. destruct (reid_phase c _ vo2 p v1) as [w1 [x1|e1]], (reid_phase c' _ vo2 p v2) as [w2 [x2|e2]]; cbn [fst snd] in E, Q; try discriminate;
    [|injection E as ->; apply agree_raise, Q].
  pose proof (sim_creates vm2 p Fvm w1 w2 Q) as [E' Q'].
  destruct (create_objects c vm2 p T w1) as [z1 [y1|e1]], (create_objects c' vm2 p T w2) as [z2 [y2|e2]]; cbn [fst snd] in E', Q'; try discriminate;
    [|injection E' as ->; apply agree_raise, Q'].
  rewrite (active_same z1 z2 Q'). apply agree_ret, Q'.
Qed.

(** ** The beginning of a call *)
Lemma orel_step o o' : orel o o' -> orel (obj_update_ct T (tracker_step o)) (obj_update_ct T (tracker_step o')).
Proof.
  intros [A B C D]. assert (X : forall o : tobj, o_conf (obj_update_ct T (tracker_step o)) = o_conf o /\ List.length (o_point_hits (obj_update_ct T (tracker_step o))) = List.length (o_point_hits o))
    by (intros x; destruct T; cbn; rewrite map_length; auto).
  destruct (X o) as [X1 X2], (X o') as [X3 X4]. split; rewrite ?X1, ?X2, ?X3, ?X4; auto. clear -A. destruct T; core A; reflexivity.
Qed.
Lemma sim_steps objs : forall s s', sim s s' -> sim (step_objects T objs s) (step_objects T objs s').
Proof.
  assert (P : same_past (fun o => obj_update_ct T (tracker_step o))) by (intros o; destruct T; reflexivity).
  induction objs as [|i objs IH]; intros s s' S; cbn; auto. apply IH, sim_obj; auto. apply orel_step.
Qed.
Lemma sim_dets dets : forall s s', sim s s' ->
  sim (match T with None => s | Some T => update_dets_ct T dets s end) (match T with None => s' | Some T => update_dets_ct T dets s' end).
Proof.
  destruct T as [T0|]; auto. induction dets as [|r dets IH]; intros s s' S; cbn; auto. apply IH.
  destruct S as [A B C D D1 E F G H I J]. split; cbn; auto.
  - intros q. unfold upd. destruct (Nat.eqb_spec q r) as [->|]; auto. destruct (A r) as [X1 X2 X3 X4 X5]. split; cbn; auto. rewrite X4. reflexivity.
  - intros q. unfold upd. destruct (Nat.eqb_spec q r) as [->|]; auto. exact (B r).
  - intros i q Hi Hq. destruct (D i q Hi Hq) as [X Y]. split; auto. cbn. unfold upd. destruct (Nat.eqb_spec q r) as [->|]; auto.
  - intros i q Hi Hq. destruct (D1 i q Hi Hq) as [X Y]. split; auto. cbn. unfold upd. destruct (Nat.eqb_spec q r) as [->|]; auto.
Qed.
Lemma prune_same s s' : sim s s' -> prune c' s' = prune c s.
Proof.
  intros S. unfold prune. destruct (st_counters _ _ _ Hc) as (_ & _ & C3). rewrite C3.
  rewrite <- (sm_tracked _ _ S). pose proof (sm_known _ _ S) as K.
  destruct (tc_reid_max c).
  - rewrite (filter_same s s' reid_hit_counter_is_positive (s_tracked s) S) by (auto; intros o o' E; core E; reflexivity).
    set (tr := filter _ (s_tracked s)). assert (Kt : Forall (known_in s) tr) by (eapply Forall_incl; [apply filter_incl'|exact K]).
    rewrite (filter_same s s' hit_counter_is_positive tr S) by (auto; intros o o' E; core E; reflexivity).
    rewrite (filter_same s s' (fun o => negb (hit_counter_is_positive o)) tr S) by (auto; intros o o' E; core E; reflexivity). reflexivity.
  - rewrite (filter_same s s' hit_counter_is_positive (s_tracked s) S) by (auto; intros o o' E; core E; reflexivity). reflexivity.
Qed.
End Sim.

Section Run.
Context {N : Num} {FO : filter_ops N}.
Notation st := (st FO).
Variable name : label -> label.
Hypothesis Hname : forall a b, name a = name b -> a = b.
Variables c c' : tconf FO.
Hypothesis Hc : same_tracker name c c'.
Notation sim := (sim name c c').
Lemma sim_base used base base' s s' : sim used base s s' -> base' <= s_icount s -> sim used base' s s'.
Proof. intros [A B C D D1 E F G H I J] L. split; auto. Qed.
Lemma sim_used (used used' : nat -> Prop) base s s' : (forall r, used r -> used' r) -> sim used base s s' -> sim used' base s s'.
Proof. intros U [A B C D D1 E F G H I J]. split; auto; intros i r Hi Hr; [destruct (D i r Hi Hr)|destruct (D1 i r Hi Hr)]; auto. Qed.
Lemma sim_update used dets p T s s' : Forall used dets -> sim used 0 s s' ->
  agree name c c' used 0 (update c (Some dets) p T s) (update c' (Some dets) p T s').
Proof.
  intros U S.
  assert (E : forall (cf : tconf FO) Q (t : st), update cf (Some dets) p Q t =
    let '(alive, dead, t') := begin_update cf dets Q t in associate cf alive dead dets p Q t') by (intros cf [Q|] t; reflexivity).
  rewrite !E. unfold begin_update.
  pose proof (sim_dets name c c' used 0 T dets s s' S) as S1.
  set (t := match T with None => s | Some T => update_dets_ct T dets s end) in *. set (t' := match T with None => s' | Some T => update_dets_ct T dets s' end) in *.
  apply sim_base with (base' := s_icount t) in S1; [|lia]. rewrite (prune_same name c c' Hc used (s_icount t) t t' S1).
  pose proof (prune_spec c t) as PS. destruct (prune c t) as [[tr al] de]. destruct PS as (P1 & P2 & P3).
  pose proof (sm_known _ _ _ _ _ _ _ S1) as K.
  assert (Kt : Forall (known_in t) tr) by (subst tr; eapply Forall_incl; [apply filter_incl'|exact K]).
  assert (S2 := sim_tracked name c c' used (s_icount t) tr t t' S1 Kt).
  assert (S3 := sim_steps name c c' used (s_icount t) T tr _ _ S2).
  assert (X : agree name c c' used (s_icount t) (associate c al de dets p T (step_objects T tr (s_set_tracked tr t)))
     (associate c' al de dets p T (step_objects T tr (s_set_tracked tr t')))).
  { apply sim_associate; auto; (eapply Forall_incl; [|exact Kt]); [rewrite P2|rewrite P3]; apply filter_incl'. }
  destruct X as [X1 X2]. split; auto. eapply sim_base; [exact X2|lia].
Qed.
Lemma put_same l l' : Forall2 (fun a a' => fst a' = fst a /\ ParamSpec.same_det name (snd a) (snd a')) l l' -> forall h h' : nat -> detection N,
  (forall r, ParamSpec.same_det name (h r) (h' r)) -> forall r, ParamSpec.same_det name (put h l r) (put h' l' r).
Proof.
  unfold put. induction 1 as [|[q d] [q' d'] l l' [E D] _ IH]; intros h h' H r; cbn in *; auto. subst q'. apply IH. intros x. unfold upd. destruct (Nat.eqb x q); auto.
Qed.
Lemma put_other l : forall (h : nat -> detection N) r, (forall d, ~ In (r, d) l) -> put h l r = h r.
Proof.
  unfold put. induction l as [|[q d] l IH]; intros h r H; cbn; auto. rewrite IH by (intros d' Hd; apply (H d'); right; exact Hd).
  unfold upd. destruct (Nat.eqb_spec r q) as [->|]; auto. elim (H d). left. reflexivity.
Qed.
Lemma sim_outcomes ins ins' : Forall2 (same_input name) ins ins' -> Forall (fun x => Forall (fun rd => same_points_seen c c' (snd rd)) (in_new x)) ins ->
  forall (used : nat -> Prop) s s', (forall before x after r d, ins = before ++ x :: after -> In (r, d) (in_new x) -> ~ used r) -> no_replacement ins ->
  sim used 0 s s' -> Forall2 (same_outcome name) (outcomes c s ins) (outcomes c' s' ins').
Proof.
  induction 1 as [|x x' ins ins' Hx _ IH]; intros Fs used s s' Hu Hr S; cbn [outcomes]; [constructor|]. inversion Fs as [|? ? Fx Fr]; subst.
  destruct Hx as (X1 & X3 & X4 & X5). rewrite X3, X4, X5.
  assert (Nx : forall r d, In (r, d) (in_new x) -> ~ used r) by (intros r d; exact (Hu [] x ins r d eq_refl)).
  assert (Nx' : forall r d, In (r, d) (in_new x') -> ~ used r).
  { intros r d Hd. revert Nx. clear -X1 Hd. induction X1 as [|[q a] [q' a'] l l' [E _] _ IH]; intros Nx; [elim Hd|]. cbn in E. subst q'.
    destruct Hd as [Hd|Hd]; [injection Hd as -> ->; apply (Nx r a); left; reflexivity|apply IH; auto; intros; apply (Nx r0 d0); right; assumption]. }
  assert (S0 : sim used 0 (meanwhile s (put (s_heap s) (in_new x)) (s_gcount s)) (meanwhile s' (put (s_heap s') (in_new x')) (s_gcount s'))).
  { destruct S as [A B C D D1 E F G H I J]. split; cbn; auto.
    - apply put_same; auto.
    - apply (put_all (same_points_seen c c')); auto.
    - intros i r Hi Hq. destruct (D i r Hi Hq) as [Y Z]. split; auto. cbn. rewrite put_other; auto. intros d Hd. apply (Nx r d Hd Y).
    - intros i r Hi Hq. destruct (D1 i r Hi Hq) as [Y Z]. split; auto. cbn. rewrite put_other; auto. intros d Hd. apply (Nx' r d Hd Y). }
  set (used' := fun r => used r \/ In r (in_dets x)).
  apply (sim_used used used') in S0; [|left; auto]. assert (U : Forall used' (in_dets x)) by (apply Forall_forall; right; auto).
  pose proof (sim_update used' (in_dets x) (in_period x) (in_ct x) _ _ U S0) as [E1 S1]. constructor.
  - split.
    + symmetry. exact E1.
    + symmetry. apply (sm_tracked _ _ _ _ _ _ _ S1).
    + symmetry. apply (sm_count _ _ _ _ _ _ _ S1).
    + symmetry. apply (sm_gcount _ _ _ _ _ _ _ S1).
    + intros i Hi. pose proof (sm_known _ _ _ _ _ _ _ S1) as K. rewrite Forall_forall in K. eapply orel_same; eauto. apply (sm_obj _ _ _ _ _ _ _ S1 i). apply K, Hi.
    + apply (sm_heap _ _ _ _ _ _ _ S1).
  - apply (IH Fr used'); auto.
    + intros before y after r d Ey Hy [Hq|Hq]; [apply (Hu (x :: before) y after r d); auto; cbn; congruence|].
      apply (Hr (x :: before) y after x r d); auto; [cbn; congruence|left; reflexivity].
    + intros before y after z r d Ey Hy Hz. apply (Hr (x :: before) y after z r d); auto; [cbn; congruence|right; exact Hz].
Qed.
Theorem tracking_same ins ins' h h' g dummy dummy' : (forall r, ParamSpec.same_det name (h r) (h' r)) -> (forall r, same_points_seen c c' (h r)) ->
  Forall2 (same_input name) ins ins' -> Forall (fun x => Forall (fun rd => same_points_seen c c' (snd rd)) (in_new x)) ins -> no_replacement ins ->
  Forall2 (same_outcome name) (outcomes c (new_tracker h g dummy) ins) (outcomes c' (new_tracker h' g dummy') ins').
Proof.
  intros A B C D E. apply (sim_outcomes ins ins' C D (fun _ => False)); auto. split; cbn; auto.
  - intros i [X Y]. cbn in Y. lia.
  - intros i r [X Y]. cbn in Y. lia.
  - intros i r [X Y]. cbn in Y. lia.
Qed.
End Run.

(** C100: two runs whose distances are ordered in the same way. *)
From Coq Require Import ZArith Bool Arith String List Lia.
From Verif Require Import Model.Num Model.Base Model.Matching Model.Filter Model.Tracker Spec.CallSpec Spec.ExampleVideo Spec.LabelSpec Spec.UnitSpec
  Spec.MonotoneSpec Proofs.NumLaws Proofs.TrackerFrame Proofs.CallEffect Proofs.UnitLists Proofs.UnitSim Proofs.UnitRun.
Import ListNotations.

Section Sim.
Context {N : Num} (laws : NumLaws N) {FO : filter_ops N}.
Notation st := (st FO).
Notation tobj := (tobj FO).
Notation ct := (option (coord_transformation N)).
Variables dh dr : dval N -> dval N.
Hypothesis Uh : distance_unit dh.
Hypothesis Ur : distance_unit dr.
Variables c c' : tconf FO.
Hypothesis Hc : ordered_alike dh dr c c'.

(** Everything that is equal. *)
Definition erase (o : tobj) : tobj := set_last_distance None (set_min_distance None o).
Definition mrel (x x' : option (dval N)) : Prop := x' = option_map dh x \/ x' = option_map dr x.
Record orel (o o' : tobj) : Prop := MkORel {
  or_core : erase o = erase o';
  or_last : o_last_distance o' = option_map dh (o_last_distance o);
  or_min : mrel (o_min_distance o) (o_min_distance o')
}.
Variable base : nat.
Definition known_in (s : st) (i : nat) : Prop := 1 <= i <= s_icount s.
Record sim (s s' : st) : Prop := MkSim {
  sm_heap : forall r, s_heap s r = s_heap s' r;
  sm_obj : forall i, known_in s i -> orel (s_store s i) (s_store s' i);
  sm_tracked : s_tracked s = s_tracked s';
  sm_known : Forall (known_in s) (s_tracked s);
  sm_count : s_count s = s_count s';
  sm_icount : s_icount s = s_icount s';
  sm_gcount : s_gcount s = s_gcount s';
  sm_base : base <= s_icount s
}.
Definition agree {A} (x x' : st * result A) : Prop := snd x = snd x' /\ sim (fst x) (fst x').

Ltac core E := match type of E with erase ?a = erase ?b =>
  destruct a as [? ? ? ? ? ? ? ? ? ? ? ? ? ? ?], b as [? ? ? ? ? ? ? ? ? ? ? ? ? ? ?]; unfold erase in E; cbn in E; injection E; clear E; intros; subst end.
Lemma orel_same o o' : orel o o' -> same_but_distances dh dr o o'.
Proof. intros [A B C]. core A. split; auto. Qed.

(** ** Primitive changes *)
Lemma sim_obj i f f' s s' : sim s s' -> (orel (s_store s i) (s_store s' i) -> orel (f (s_store s i)) (f' (s_store s' i))) -> sim (mod_obj i f s) (mod_obj i f' s').
Proof. intros [A C E F G H I J] K. split; cbn; auto. intros j Hj. unfold upd. destruct (Nat.eqb_spec j i) as [->|Hne]; auto. Qed.
Lemma sim_det r f s s' : sim s s' -> sim (mod_det r f s) (mod_det r f s').
Proof. intros [A C E F G H I J]. split; cbn; auto. intros q. unfold upd. destruct (Nat.eqb_spec q r) as [->|]; auto. rewrite A. reflexivity. Qed.
Lemma sim_tracked l s s' : sim s s' -> Forall (known_in s) l -> sim (s_set_tracked l s) (s_set_tracked l s').
Proof. intros [A C E F G H I J] K. split; cbn; auto. Qed.
(** Changes that neither read nor write the two distances. *)
Definition plain (f f' : tobj -> tobj) : Prop := forall o o', erase o = erase o' ->
  erase (f o) = erase (f' o') /\ o_last_distance (f o) = o_last_distance o /\ o_last_distance (f' o') = o_last_distance o' /\
  o_min_distance (f o) = o_min_distance o /\ o_min_distance (f' o') = o_min_distance o'.
Lemma orel_plain f f' o o' : plain f f' -> orel o o' -> orel (f o) (f' o').
Proof. intros P [A B C]. destruct (P o o' A) as (P1 & P2 & P3 & P4 & P5). split; rewrite ?P2, ?P3, ?P4, ?P5; auto. Qed.
Lemma sim_plain i f f' s s' : plain f f' -> sim s s' -> sim (mod_obj i f s) (mod_obj i f' s').
Proof. intros P S. apply sim_obj; auto. apply orel_plain, P. Qed.
Ltac plain_ := let E := fresh in intros ? ? E; core E; repeat split.
Lemma sim_ids i s s' : sim s s' -> sim (acquire_ids i s) (acquire_ids i s').
Proof.
  intros S. unfold acquire_ids. rewrite (sm_count _ _ S), (sm_gcount _ _ S). apply sim_plain; [plain_|].
  destruct S as [A C E F G H I J]. split; cbn; auto.
Qed.

(** ** Methods of objects *)
Lemma agree_ret {A} (a : A) s s' : sim s s' -> agree (s, Ret a) (s', Ret a).
Proof. intros S. split; auto. Qed.
Lemma agree_raise {A} e s s' : sim s s' -> agree (A:=A) (s, Raise e) (s', Raise e).
Proof. intros S. split; auto. Qed.
Lemma sim_core i s s' : known_in s i -> sim s s' -> erase (s_store s i) = erase (s_store s' i).
Proof. intros Hi S. exact (or_core _ _ (sm_obj _ _ S i Hi)). Qed.
Lemma core_eq {A} (f : tobj -> A) o o' : erase o = erase o' -> (forall o, f (erase o) = f o) -> f o' = f o.
Proof. intros E H. rewrite <- (H o), <- (H o'), E. reflexivity. Qed.
Ltac field K S i := rewrite ?(core_eq (fun o => o_past o) _ _ (sim_core i _ _ K S) (fun _ => eq_refl)), ?(core_eq (fun o => o_conf o) _ _ (sim_core i _ _ K S) (fun _ => eq_refl)),
  ?(core_eq (fun o => o_age o) _ _ (sim_core i _ _ K S) (fun _ => eq_refl)), ?(core_eq (fun o => o_hit o) _ _ (sim_core i _ _ K S) (fun _ => eq_refl)),
  ?(core_eq (fun o => o_initializing o) _ _ (sim_core i _ _ K S) (fun _ => eq_refl)), ?(core_eq (fun o => o_once o) _ _ (sim_core i _ _ K S) (fun _ => eq_refl)),
  ?(core_eq (fun o => o_point_hits o) _ _ (sim_core i _ _ K S) (fun _ => eq_refl)), ?(core_eq (fun o => o_filter o) _ _ (sim_core i _ _ K S) (fun _ => eq_refl)),
  ?(core_eq (fun o => dim_z o) _ _ (sim_core i _ _ K S) (fun _ => eq_refl)), ?(core_eq (fun o => o_last_det o) _ _ (sim_core i _ _ K S) (fun _ => eq_refl)).
Lemma sim_cond_add i r s s' : known_in s i -> sim s s' -> agree (cond_add_past i r s) (cond_add_past i r s').
Proof.
  intros Hi S. unfold cond_add_past. field Hi S i. set (o := s_store s i).
  destruct (Nat.eqb _ 0); [apply agree_ret, S|].
  destruct (Nat.ltb _ _).
  - apply agree_ret. apply sim_plain; [plain_|apply sim_det, S].
  - destruct (o_past o) as [|first rest]; [apply agree_raise, S|]. rewrite <- (sm_heap _ _ S). destruct (d_age _); [|apply agree_raise, S].
    destruct (_ <=? _)%Z; [|apply agree_ret, S]. apply agree_ret. apply sim_plain; [plain_|]. apply sim_det, S.
Qed.

Definition act (i : nat) : Prop := 1 <= i <= base.
Lemma act_known s s' i : sim s s' -> act i -> known_in s i.
Proof. intros S [A B]. pose proof (sm_base _ _ S). split; lia. Qed.
Lemma sim_hit i r p s s' : act i -> sim s s' -> agree (hit i r p s) (hit i r p s').
Proof.
  intros Hi S. unfold hit. pose proof (sim_cond_add i r s s' (act_known _ _ _ S Hi) S) as [E S0].
  destruct (cond_add_past i r s) as [t [u|e]], (cond_add_past i r s') as [t' [u'|e']]; cbn [fst snd] in E, S0; try discriminate; [clear E u u'|injection E as ->; apply agree_raise, S0].
  clear S s s'.
  assert (S1 : sim (mod_obj i (set_last_det r) t) (mod_obj i (set_last_det r) t')) by (apply sim_plain; [plain_|exact S0]).
  set (a1 := mod_obj i (set_last_det r) t) in *. set (a2 := mod_obj i (set_last_det r) t') in *. clearbody a1 a2. clear S0 t t'.
  assert (S2 : sim (mod_obj i (fun o => set_hit (Z.min (o_hit o + 2 * p) (oc_hit_counter_max (o_conf o))) o) a1)
                   (mod_obj i (fun o => set_hit (Z.min (o_hit o + 2 * p) (oc_hit_counter_max (o_conf o))) o) a2)) by (apply sim_plain; [plain_|exact S1]).
  set (b1 := mod_obj i _ a1) in *. set (b2 := mod_obj i _ a2) in *. clearbody b1 b2. clear S1 a1 a2.
  field (act_known _ _ _ S2 Hi) S2 i.
  set (cnd := (o_initializing (s_store b1 i) && (oc_delay (o_conf (s_store b1 i)) <? o_hit (s_store b1 i))%Z)%bool).
  assert (S3 : sim (if cnd then acquire_ids i (mod_obj i (set_initializing false) b1) else b1)
                   (if cnd then acquire_ids i (mod_obj i (set_initializing false) b2) else b2))
    by (destruct cnd; auto; apply sim_ids; apply sim_plain; [plain_|exact S2]).
  set (c1 := if cnd then acquire_ids i (mod_obj i (set_initializing false) b1) else b1) in *.
  set (c2 := if cnd then acquire_ids i (mod_obj i (set_initializing false) b2) else b2) in *.
  clearbody c1 c2. clear S2 cnd b1 b2. pose proof (act_known _ _ _ S3 Hi) as K3. field K3 S3 i. rewrite <- (sm_heap _ _ S3 r).
  set (mask := over_threshold _ _ (s_heap c1 r)).
  set (counted := match d_scores (s_heap c1 r) with Some _ => mask | None => _ end).
  set (z := flatten (d_absolute_points (s_heap c1 r))).
  destruct (negb (Nat.eqb (List.length counted) _)); [apply agree_raise, S3|].
  assert (S4 : sim (mod_obj i (fun o => set_point_hits (point_hits_update p (oc_pointwise_max (o_conf o)) counted (o_point_hits o)) o) c1)
                   (mod_obj i (fun o => set_point_hits (point_hits_update p (oc_pointwise_max (o_conf o)) counted (o_point_hits o)) o) c2))
    by (apply sim_plain; [plain_|exact S3]).
  set (x1 := mod_obj i _ c1) in *. set (x2 := mod_obj i _ c2) in *. clearbody x1 x2.
  destruct (negb _ || negb _)%bool; [apply agree_raise, S4|]. set (diagonal := repeat_each _ _).
  assert (S5 : sim (mod_obj i (fun o => set_filter (f_update FO (o_filter o) z diagonal) o) x1)
                   (mod_obj i (fun o => set_filter (f_update FO (o_filter o) z diagonal) o) x2)) by (apply sim_plain; [plain_|exact S4]).
  set (y1 := mod_obj i _ x1) in *. set (y2 := mod_obj i _ x2) in *. clearbody y1 y2.
  destruct (negb (Nat.eqb (List.length (o_once _)) _)); [apply agree_raise, S5|]. apply agree_ret.
  apply sim_plain; [plain_|]. apply sim_plain; [plain_|exact S5].
Qed.
Lemma sim_add_pasts i rs : forall s s', act i -> sim s s' -> agree (add_pasts i rs s) (add_pasts i rs s').
Proof.
  induction rs as [|r rs IH]; intros s s' Hi S; cbn [add_pasts]; [apply agree_ret, S|].
  pose proof (sim_cond_add i r s s' (act_known _ _ _ S Hi) S) as [E S0].
  destruct (cond_add_past i r s) as [t [u|e]], (cond_add_past i r s') as [t' [u'|e']]; cbn [fst snd] in E, S0; try discriminate; [apply IH; auto|injection E as ->; apply agree_raise, S0].
Qed.
Lemma sim_merge i j s s' : act i -> act j -> sim s s' -> agree (merge i j s) (merge i j s').
Proof.
  intros Hi Hj S. unfold merge. pose proof (act_known _ _ _ S Hj) as Kj. pose proof (sm_obj _ _ S j Kj) as OJ. field Kj S j.
  apply sim_add_pasts; auto. apply sim_obj; auto. intros [A B C]. destruct OJ as [A' B' C'].
  set (c1 := s_store s j) in *. set (c2 := s_store s' j) in *. set (o1 := s_store s i) in *. set (o2 := s_store s' i) in *. clearbody c1 c2 o1 o2.
  split; cbn; auto. clear -A A'. core A. core A'. reflexivity.
Qed.

(** ** Distances *)
Definition cand_ok (x : cand) : Prop := match x with CDet r => True | CObj i => act i end.
Lemma view_obj_same s s' i : sim s s' -> act i -> view_but_distances dh dr (view_obj s i) (view_obj s' i).
Proof.
  intros S Hi. pose proof (act_known _ _ _ S Hi) as K. split; [apply orel_same, (sm_obj _ _ S i K)|]. unfold view_obj. cbn [v_last v_past]. field K S i.
  split; [symmetry; apply (sm_heap _ _ S)|]. apply map_ext. intros r. symmetry. apply (sm_heap _ _ S).
Qed.
Lemma view_cand_same s s' x : sim s s' -> cand_ok x -> cand_but_distances dh dr (view_cand s x) (view_cand s' x).
Proof. intros S Hx. destruct x as [r|j]; cbn; [symmetry; apply (sm_heap _ _ S)|apply view_obj_same; auto]. Qed.
Lemma obj_label_same s s' i : sim s s' -> act i -> obj_label s' i = obj_label s i.
Proof. intros S Hi. unfold obj_label. field (act_known _ _ _ S Hi) S i. reflexivity. Qed.
Lemma cand_label_same s s' x : sim s s' -> cand_ok x -> cand_label s' x = cand_label s x.
Proof. intros S Hx. destruct x as [r|j]; cbn; [rewrite (sm_heap _ _ S r); reflexivity|]. apply (obj_label_same s s' j S Hx). Qed.
Lemma vector_same s s' x : sim s s' -> cand_ok x -> cand_vector s' x = cand_vector s x.
Proof.
  intros S Hx. destruct x as [r|j]; cbn; [rewrite (sm_heap _ _ S r); reflexivity|].
  rewrite (sb_estimate _ _ _ _ (orel_same _ _ (sm_obj _ _ S j (act_known _ _ _ S Hx)))). reflexivity.
Qed.
Section Phase.
Variables rnd rnd' : dval N -> dval N.
Variable k : dval N -> dval N.
Hypothesis Hk : (k = dh \/ k = dr).
Hypothesis Uk : distance_unit k.
Lemma scalar_same f f' s s' objects cands : values_ordered dh dr rnd rnd' k f f' -> sim s s' -> Forall act objects -> Forall cand_ok cands ->
  scalar_distances rnd' f' s' objects cands = result_map (map (map k)) (scalar_distances rnd f s objects cands).
Proof.
  intros Hf S Fo Fc. rewrite Forall_forall in Fo, Fc. unfold scalar_distances. apply map_result_units. intros x Hx. apply map_result_units. intros i Hi.
  rewrite (cand_label_same s s' x S (Fc x Hx)), (obj_label_same s s' i S (Fo i Hi)). destruct (negb _); cbn; [rewrite (du_infinity _ Uk); reflexivity|].
  pose proof (Hf _ _ _ _ (view_cand_same s s' x S (Fc x Hx)) (view_obj_same s s' i S (Fo i Hi))) as E.
  destruct (f _ _), (f' _ _); cbn in *; try discriminate; injection E as ->; reflexivity.
Qed.
Lemma vector_loop_same f f' s s' objects cands : matrices_ordered rnd rnd' k f f' -> sim s s' -> Forall act objects -> Forall cand_ok cands ->
  forall labels M, vectorized_loop rnd' f' s' objects cands labels (map (map k) M) = result_map (map (map k)) (vectorized_loop rnd f s objects cands labels M).
Proof.
  intros Hf S Fo Fc. rewrite Forall_forall in Fo, Fc. induction labels as [|l labels IH]; intros M; cbn [vectorized_loop]; [reflexivity|].
  assert (L1 : forall i, In i objects -> obj_label s' i = obj_label s i) by (intros i Hi; apply (obj_label_same s s' i S (Fo i Hi))).
  assert (L2 : forall i, In i cands -> cand_label s' i = cand_label s i) by (intros i Hi; apply (cand_label_same s s' i S (Fc i Hi))).
  assert (E1 : map (fun i => String.eqb (label_str (obj_label s' i)) l) objects = map (fun i => String.eqb (label_str (obj_label s i)) l) objects)
    by (apply map_ext_in; intros i Hi; rewrite (L1 i Hi); reflexivity).
  assert (E2 : map (fun c => String.eqb (label_str (cand_label s' c)) l) cands = map (fun c => String.eqb (label_str (cand_label s c)) l) cands)
    by (apply map_ext_in; intros i Hi; rewrite (L2 i Hi); reflexivity).
  assert (E3 : filter (fun i => String.eqb (label_str (obj_label s' i)) l) objects = filter (fun i => String.eqb (label_str (obj_label s i)) l) objects)
    by (apply filter_ext_in; intros i Hi; rewrite (L1 i Hi); reflexivity).
  assert (E4 : filter (fun c => String.eqb (label_str (cand_label s' c)) l) cands = filter (fun c => String.eqb (label_str (cand_label s c)) l) cands)
    by (apply filter_ext_in; intros i Hi; rewrite (L2 i Hi); reflexivity).
  rewrite E1, E2, E3, E4. set (objs := filter _ objects). set (cs := filter _ cands).
  assert (P : map (cand_vector s') cs = map (cand_vector s) cs).
  { apply map_ext_in. intros x Hx. apply vector_same; auto. apply filter_In in Hx. apply Fc, Hx. }
  assert (Q : map (fun i => flatten (estimate (s_store s' i))) objs = map (fun i => flatten (estimate (s_store s i))) objs).
  { apply map_ext_in. intros i Hi. apply (vector_same s s' (CObj i) S). apply filter_In in Hi. apply Fo, Hi. }
  rewrite P, Q. destruct (stack (map _ objs)) as [qs|]; auto. destruct (stack _) as [ps|]; auto. pose proof (Hf ps qs) as E.
  destruct (f ps qs) as [D|], (f' ps qs) as [D'|]; cbn in E; try discriminate; [|injection E as ->; reflexivity].
  assert (E5 : map (map rnd') D' = map (map k) (map (map rnd) D)).
  { injection E as E. rewrite E, map_map. apply map_ext. intros r. rewrite map_map. reflexivity. }
  assert (El : map (@List.length _) D' = map (@List.length _) D).
  { transitivity (map (@List.length _) (map (map rnd') D')); [rewrite map_map; apply map_ext; intros; rewrite map_length; reflexivity|].
    rewrite E5, !map_map. apply map_ext. intros. rewrite !map_length. reflexivity. }
  assert (El1 : List.length D' = List.length D) by (rewrite <- (map_length (@List.length _) D'), El; apply map_length).
  assert (El2 : forall n, forallb (fun r : list (dval N) => Nat.eqb (List.length r) n) D' = forallb (fun r : list (dval N) => Nat.eqb (List.length r) n) D).
  { intros n. assert (X : forall D : list (list (dval N)), forallb (fun r : list (dval N) => Nat.eqb (List.length r) n) D = forallb (fun x => Nat.eqb x n) (map (@List.length _) D))
      by (clear; induction D; cbn; congruence). rewrite !X, El. reflexivity. }
  rewrite El1, El2. destruct (_ && _)%bool; [|reflexivity]. rewrite E5, assign_rows_map. apply IH.
Qed.
Definition distance_ordered (d d' : distance FO) : Prop :=
  match d, d' with
  | ScalarDistance f, ScalarDistance f' => values_ordered dh dr rnd rnd' k f f'
  | VectorizedDistance f, VectorizedDistance f' => matrices_ordered rnd rnd' k f f'
  | _, _ => False
  end.
Lemma distances_same d d' s s' objects cands : distance_ordered d d' -> sim s s' -> Forall act objects -> Forall cand_ok cands ->
  get_distances rnd' d' s' objects cands = result_map (map (map k)) (get_distances rnd d s objects cands).
Proof.
  intros Hd S Fo Fc. destruct d as [f|f], d' as [f'|f']; cbn in *; try contradiction; [apply scalar_same; auto|]. unfold vectorized_distances.
  assert (E1 : map (fun i => label_str (obj_label s' i)) objects = map (fun i => label_str (obj_label s i)) objects).
  { apply map_ext_in. intros i Hi. rewrite Forall_forall in Fo. rewrite (obj_label_same s s' i S (Fo i Hi)). reflexivity. }
  assert (E2 : map (fun c => label_str (cand_label s' c)) cands = map (fun c => label_str (cand_label s c)) cands).
  { apply map_ext_in. intros i Hi. rewrite Forall_forall in Fc. rewrite (cand_label_same s s' i S (Fc i Hi)). reflexivity. }
  rewrite E1, E2. set (M := map (fun _ => map (fun _ => DPInf) objects) cands : matrix N).
  assert (EM : map (map k) M = M). { unfold M. rewrite map_map. apply map_ext. intros _. rewrite map_map. apply map_ext. intros _. apply (du_infinity _ Uk). }
  destruct objects as [|o objects]; [cbn [result_map]; rewrite EM; reflexivity|]. destruct cands as [|x cands]; [cbn [result_map]; rewrite EM; reflexivity|].
  rewrite <- EM at 1. apply vector_loop_same; auto.
Qed.

(** ** The association *)
Variable thr : dval N.
Hypothesis Hs : can_stop rnd thr.
Hypothesis Hs' : can_stop rnd' (k thr).
Lemma sim_min M objects : forall j s s', sim s s' -> sim (set_min_distances thr M j objects s) (set_min_distances (k thr) (map (map k) M) j objects s').
Proof.
  induction objects as [|i objects IH]; intros j s s' S; cbn; auto. apply IH. apply sim_obj; auto. intros [A B C]. split; cbn; auto.
  rewrite (col_min_in_units k Uk M j (unit_nan k Uk)), (du_order _ Uk). unfold mrel. destruct Hk as [Hk'|Hk'].
  - left. rewrite <- Hk'. destruct (dltb _ thr); reflexivity.
  - right. rewrite <- Hk'. destruct (dltb _ thr); reflexivity.
Qed.
Lemma sim_matches M objects cands p pairs : Forall act objects -> Forall cand_ok cands -> (k = dh \/ Forall (fun c => match c with CObj _ => True | _ => False end) cands) ->
  forall uc mo uo s s', sim s s' ->
  agree (apply_matches thr M objects cands p pairs uc mo uo s) (apply_matches (k thr) (map (map k) M) objects cands p pairs uc mo uo s').
Proof.
  intros Fo Fc Fk. rewrite Forall_forall in Fo, Fc. induction pairs as [|[ci oi] pairs IH]; intros uc mo uo s s' S; [apply agree_ret, S|].
  cbn [apply_matches]. rewrite (entry_in_units k M ci oi (unit_nan k Uk)), (du_order _ Uk).
  destruct (nth_error cands ci) as [x|] eqn:Ec; [|apply agree_raise, S].
  destruct (nth_error objects oi) as [i|] eqn:Ei; [|apply agree_raise, S].
  apply nth_error_In in Ec, Ei. pose proof Ec as Ic. apply Fc in Ec. apply Fo in Ei.
  destruct (dltb _ thr) eqn:El; [|apply IH; auto]. destruct x as [r|j]; cbn in Ec.
  - pose proof (sim_hit i r p s s' Ei S) as [E S'].
    destruct (hit i r p s) as [t1 [u1|e1]], (hit i r p s') as [t2 [u2|e2]]; cbn [fst snd] in E, S'; try discriminate.
    + apply IH. apply sim_obj; auto. intros [A B C]. destruct Fk as [Fk|Fk]; [|rewrite Forall_forall in Fk; elim (Fk _ Ic)].
      split; cbn; auto; rewrite Fk; reflexivity.
    + injection E as ->. apply agree_raise, S'.
  - pose proof (sim_merge i j s s' Ei Ec S) as [E S'].
    destruct (merge i j s) as [t1 [u1|e1]], (merge i j s') as [t2 [u2|e2]]; cbn [fst snd] in E, S'; try discriminate.
    + rewrite <- (sm_tracked _ _ S'). destruct (existsb _ _); [|apply agree_raise, S'].
      apply IH. apply sim_tracked; auto. apply remove_first_Forall, (sm_known _ _ S').
    + injection E as ->. apply agree_raise, S'.
Qed.
Lemma sim_phase d d' objects cands p s s' : distance_ordered d d' -> Forall act objects -> Forall cand_ok cands ->
  (k = dh \/ Forall (fun c => match c with CObj _ => True | _ => False end) cands) -> sim s s' ->
  agree (update_objects_in_place rnd d thr objects cands p s) (update_objects_in_place rnd' d' (k thr) objects cands p s').
Proof.
  intros Hd Fo Fc Fk S. unfold update_objects_in_place. destruct cands as [|c0 cands0]; [apply agree_ret, S|].
  set (cands := c0 :: cands0) in *. clearbody cands. rewrite (distances_same d d' s s' objects cands Hd S Fo Fc).
  destruct (get_distances rnd d s objects cands) as [M|e]; cbn [result_map]; [|apply agree_raise, S].
  rewrite (nan_in_units k Uk M), (truth_in_units k Uk M).
  destruct (existsb dis_nan (List.concat M)) eqn:En; [apply agree_raise, S|]. rewrite (match_in_units laws k Uk rnd rnd' thr M Hs Hs' En).
  assert (S' : sim (if existsb dtruth (List.concat M) then set_min_distances thr M 0 objects s else s)
                   (if existsb dtruth (List.concat M) then set_min_distances (k thr) (map (map k) M) 0 objects s' else s'))
    by (destruct (existsb dtruth _); auto; apply sim_min, S).
  set (t1 := if existsb dtruth (List.concat M) then _ else s) in *. set (t2 := if existsb dtruth (List.concat M) then _ else s') in *.
  clearbody t1 t2. destruct (match_dets_and_objs rnd thr M) as [[cis ois]|]; [|apply agree_raise, S'].
  destruct cis; [apply agree_ret, S'|]. apply sim_matches; auto.
Qed.
End Phase.

(** ** Whole calls *)
Variable T : ct.
Lemma sim_create r p s s' : sim s s' -> sim (create_object c r p T s) (create_object c' r p T s').
Proof.
  intros HS. unfold create_object. destruct (oa_same _ _ _ _ Hc) as (C1 & C2 & C3 & C4 & C5 & C6). rewrite C1, C2, C3, C4, C5, C6.
  rewrite <- (sm_heap _ _ HS r), <- (sm_icount _ _ HS), <- (sm_gcount _ _ HS), <- (sm_tracked _ _ HS), <- (sm_count _ _ HS).
  set (d := s_heap s r). set (iid := S (s_icount s)). set (o := MkObj _ p None None None r 0%Z _ None None _ _ _ _ _).
  assert (S1 : sim (MkSt (s_heap s) (s_gcount s) (upd (s_store s) iid o) (s_tracked s) (s_count s) iid)
                   (MkSt (s_heap s') (s_gcount s) (upd (s_store s') iid o) (s_tracked s) (s_count s) iid)).
  { destruct HS as [A C E F G H I J]. split; cbn; auto.
    - intros i [Hi1 Hi2]. cbn in Hi2. unfold upd. destruct (Nat.eqb_spec i iid) as [->|Hne]; [split; cbn; auto; left; reflexivity|]. apply C. split; cbn; lia.
    - eapply Forall_impl; [|exact F]. intros i [X Y]. split; cbn; unfold iid; lia.
    - unfold iid. lia. }
  set (x1 := MkSt (s_heap s) _ _ _ _ _) in *. set (x2 := MkSt (s_heap s') _ _ _ _ _) in *.
  assert (Hk : known_in x1 iid) by (unfold x1, iid; split; cbn; lia).
  assert (S2 : sim (mod_det r (d_set_age 0) (if o_initializing o then x1 else acquire_ids iid x1))
                   (mod_det r (d_set_age 0) (if o_initializing o then x2 else acquire_ids iid x2)))
    by (apply sim_det; destruct (o_initializing o); auto; apply sim_ids; auto).
  assert (Hk2 : known_in (mod_det r (d_set_age 0) (if o_initializing o then x1 else acquire_ids iid x1)) iid) by (destruct (o_initializing o); exact Hk).
  change ((p <=? tc_delay c)%Z) with (o_initializing o).
  set (y1 := mod_det r _ (if o_initializing o then x1 else _)) in *. set (y2 := mod_det r _ (if o_initializing o then x2 else _)) in *. clearbody y1 y2.
  rewrite <- (sm_tracked _ _ S2). apply sim_tracked; auto. apply Forall_app. split; [exact (sm_known _ _ S2)|]. constructor; auto.
Qed.
Lemma sim_creates cands p : forall s s', sim s s' -> agree (create_objects c cands p T s) (create_objects c' cands p T s').
Proof.
  induction cands as [|x cands IH]; intros s s' S; cbn; [apply agree_ret, S|]. destruct x as [r|j]; [|apply agree_raise, S]. apply IH. apply sim_create; auto.
Qed.
Lemma filter_same s s' (f : tobj -> bool) l : sim s s' -> (forall o, f (erase o) = f o) -> Forall (known_in s) l ->
  filter (fun i => f (s_store s' i)) l = filter (fun i => f (s_store s i)) l.
Proof.
  intros S Hf K. rewrite Forall_forall in K. apply filter_ext_in. intros i Hi. exact (core_eq f _ _ (sim_core i s s' (K i Hi) S) Hf).
Qed.
Lemma active_same s s' : sim s s' -> get_active_objects s' = get_active_objects s.
Proof.
  intros S. unfold get_active_objects. rewrite <- (sm_tracked _ _ S). apply filter_same; auto. exact (sm_known _ _ S).
Qed.
Lemma sim_reid objects matched p s s' : Forall act objects -> Forall act matched -> sim s s' -> agree (reid_phase c objects matched p s) (reid_phase c' objects matched p s').
Proof.
  intros Fo Fm S. unfold reid_phase. pose proof (oa_reid _ _ _ _ Hc) as CR. destruct (oa_stops _ _ _ _ Hc) as (_ & _ & CS).
  pose proof (oa_reid_threshold _ _ _ _ Hc) as ET. rewrite ET in *.
  destruct (tc_reid_distance c) as [f|], (tc_reid_distance c') as [f'|]; try contradiction; [|apply agree_ret, S].
  destruct (CS ltac:(discriminate)) as [H1 H2].
  assert (Fm' : Forall cand_ok (map CObj matched)) by (rewrite Forall_map; exact Fm).
  assert (Fm2 : Forall (fun c => match c with CObj _ => True | _ => False end) (map CObj matched)) by (rewrite Forall_map; apply Forall_forall; auto).
  pose proof (sim_phase (tc_rnd c) (tc_rnd c') dr (or_intror eq_refl) Ur (tc_reid_threshold c) H1 H2 (ScalarDistance f) (ScalarDistance f') objects (map CObj matched) p s s'
    CR Fo Fm' (or_intror Fm2) S) as [E X].
  destruct (update_objects_in_place (tc_rnd c) (ScalarDistance f) _ _ _ p s) as [w1 [x1|e1]];
  destruct (update_objects_in_place (tc_rnd c') (ScalarDistance f') _ _ _ p s') as [w2 [x2|e2]]; cbn [fst snd] in E, X; try discriminate;
    [apply agree_ret, X|injection E as ->; apply agree_raise, X].
Qed.
Lemma sim_main objects cands p s s' : Forall act objects -> Forall cand_ok cands -> sim s s' ->
  agree (update_objects_in_place (tc_rnd c) (tc_distance c) (tc_threshold c) objects cands p s)
        (update_objects_in_place (tc_rnd c') (tc_distance c') (tc_threshold c') objects cands p s').
Proof.
  intros Fo Fc S. destruct (oa_stops _ _ _ _ Hc) as (H1 & H2 & _). rewrite (oa_threshold _ _ _ _ Hc) in *.
  apply (sim_phase (tc_rnd c) (tc_rnd c') dh (or_introl eq_refl) Uh); auto. exact (oa_distance _ _ _ _ Hc).
Qed.
Lemma sim_associate alive dead dets p s s' : Forall act alive -> Forall act dead -> sim s s' ->
  agree (associate c alive dead dets p T s) (associate c' alive dead dets p T s').
Proof.
  intros Fa Fd S. unfold associate.
  assert (Fk : forall t t' : st, sim t t' -> Forall (known_in t) alive) by (intros t t' St; eapply Forall_impl; [|exact Fa]; intros i; apply (act_known _ _ _ St)).
  rewrite (filter_same s s' (fun o => negb (o_initializing o)) alive S (fun _ => eq_refl)) by eauto.
  assert (Fdets : Forall cand_ok (map CDet dets)) by (rewrite Forall_map; apply Forall_forall; cbn; auto).
  match goal with |- context [update_objects_in_place (tc_rnd c) (tc_distance c) ?thr ?obs ?cs p s] =>
    pose proof (sim_main obs cs p s s' (Forall_incl _ _ _ (filter_incl' _ _) Fa) Fdets S) as [E S'];
    destruct (update_objects_in_place (tc_rnd c) (tc_distance c) thr obs cs p s) as [t1 [[[um1 mo1] ui1]|e1]] eqn:U1;
    destruct (update_objects_in_place (tc_rnd c') (tc_distance c') (tc_threshold c') obs cs p s') as [t2 [[[um2 mo2] ui2]|e2]] eqn:U2;
    cbn [fst snd] in E, S'; try discriminate; injection E; clear E; intros; subst; [|apply agree_raise, S'] end.
  apply uip_unmatched_incl in U1 as (_ & Iui & Ium). clear U2.
  assert (Fum : Forall cand_ok um2) by (eapply Forall_incl; eauto).
  assert (Fui : Forall act ui2) by (eapply Forall_incl; [exact Iui|eapply Forall_incl; [apply filter_incl'|exact Fa]]).
  rewrite (filter_same t1 t2 (fun o => o_initializing o) alive S' (fun _ => eq_refl)) by eauto.
  match goal with |- context [update_objects_in_place (tc_rnd c) (tc_distance c) ?thr ?obs ?cs p t1] =>
    pose proof (sim_main obs cs p t1 t2 (Forall_incl _ _ _ (filter_incl' _ _) Fa) Fum S') as [E S''];
    destruct (update_objects_in_place (tc_rnd c) (tc_distance c) thr obs cs p t1) as [v1 [[[vm1 vo1] vi1]|e1]] eqn:V1;
    destruct (update_objects_in_place (tc_rnd c') (tc_distance c') (tc_threshold c') obs cs p t2) as [v2 [[[vm2 vo2] vi2]|e2]] eqn:V2;
    cbn [fst snd] in E, S''; try discriminate; injection E; clear E; intros; subst; [|apply agree_raise, S''] end.
  apply uip_unmatched_incl in V1 as (Ivo & _ & Ivm). clear V2.
  assert (Fvo : Forall act vo2) by (eapply Forall_incl; [exact Ivo|eapply Forall_incl; [apply filter_incl'|exact Fa]]).
  assert (Q : agree (reid_phase c (ui2 ++ dead) vo2 p v1) (reid_phase c' (ui2 ++ dead) vo2 p v2)) by (apply sim_reid; auto; apply Forall_app; auto).
  destruct Q as [E Q]. destruct (reid_phase c _ vo2 p v1) as [w1 [x1|e1]], (reid_phase c' _ vo2 p v2) as [w2 [x2|e2]]; cbn [fst snd] in E, Q; try discriminate;
    [|injection E as ->; apply agree_raise, Q].
  pose proof (sim_creates vm2 p w1 w2 Q) as [E' Q'].
  destruct (create_objects c vm2 p T w1) as [z1 [y1|e1]], (create_objects c' vm2 p T w2) as [z2 [y2|e2]]; cbn [fst snd] in E', Q'; try discriminate;
    [|injection E' as ->; apply agree_raise, Q'].
  rewrite (active_same z1 z2 Q'). apply agree_ret, Q'.
Qed.

(** ** The beginning of a call *)
Lemma sim_steps objs : forall s s', sim s s' -> sim (step_objects T objs s) (step_objects T objs s').
Proof.
  induction objs as [|i objs IH]; intros s s' S; cbn; auto. apply IH, sim_plain; auto. destruct T; plain_.
Qed.
Lemma sim_dets dets : forall s s', sim s s' ->
  sim (match T with None => s | Some T => update_dets_ct T dets s end) (match T with None => s' | Some T => update_dets_ct T dets s' end).
Proof. destruct T as [T0|]; auto. induction dets as [|r dets IH]; intros s s' S; cbn; auto. apply IH. apply sim_det, S. Qed.
Lemma prune_same s s' : sim s s' -> prune c' s' = prune c s.
Proof.
  intros S. unfold prune. destruct (oa_same _ _ _ _ Hc) as (_ & _ & _ & _ & _ & C3). rewrite C3.
  rewrite <- (sm_tracked _ _ S). pose proof (sm_known _ _ S) as K.
  destruct (tc_reid_max c).
  - rewrite (filter_same s s' reid_hit_counter_is_positive (s_tracked s) S (fun _ => eq_refl) K).
    set (tr := filter _ (s_tracked s)). assert (Kt : Forall (known_in s) tr) by (eapply Forall_incl; [apply filter_incl'|exact K]).
    rewrite (filter_same s s' hit_counter_is_positive tr S (fun _ => eq_refl) Kt).
    rewrite (filter_same s s' (fun o => negb (hit_counter_is_positive o)) tr S (fun _ => eq_refl) Kt). reflexivity.
  - rewrite (filter_same s s' hit_counter_is_positive (s_tracked s) S (fun _ => eq_refl) K). reflexivity.
Qed.
End Sim.

Section Run.
Context {N : Num} (laws : NumLaws N) {FO : filter_ops N}.
Notation st := (st FO).
Variables dh dr : dval N -> dval N.
Hypothesis Uh : distance_unit dh.
Hypothesis Ur : distance_unit dr.
Variables c c' : tconf FO.
Hypothesis Hc : ordered_alike dh dr c c'.
Notation sim := (sim (FO := FO) dh dr).
Lemma sim_base base base' s s' : sim base s s' -> base' <= s_icount s -> sim base' s s'.
Proof. intros [A C E F G H I J] L. split; auto. Qed.
Lemma sim_update dets p T s s' : sim 0 s s' -> agree dh dr 0 (update c (Some dets) p T s) (update c' (Some dets) p T s').
Proof.
  intros S.
  assert (E : forall (cf : tconf FO) Q (t : st), update cf (Some dets) p Q t =
    let '(alive, dead, t') := begin_update cf dets Q t in associate cf alive dead dets p Q t') by (intros cf [Q|] t; reflexivity).
  rewrite !E. unfold begin_update. pose proof (sim_dets dh dr 0 T dets s s' S) as S1.
  set (t := match T with None => s | Some T => update_dets_ct T dets s end) in *. set (t' := match T with None => s' | Some T => update_dets_ct T dets s' end) in *.
  apply sim_base with (base' := s_icount t) in S1; [|lia]. rewrite (prune_same dh dr c c' Hc (s_icount t) t t' S1).
  pose proof (prune_spec c t) as PS. destruct (prune c t) as [[tr al] de]. destruct PS as (P1 & P2 & P3).
  pose proof (sm_known _ _ _ _ _ S1) as K.
  assert (Kt : Forall (known_in t) tr) by (subst tr; eapply Forall_incl; [apply filter_incl'|exact K]).
  assert (S2 := sim_tracked dh dr (s_icount t) tr t t' S1 Kt). assert (S3 := sim_steps dh dr (s_icount t) T tr _ _ S2).
  assert (X : agree dh dr (s_icount t) (associate c al de dets p T (step_objects T tr (s_set_tracked tr t)))
     (associate c' al de dets p T (step_objects T tr (s_set_tracked tr t')))).
  { apply sim_associate; auto; (eapply Forall_incl; [|exact Kt]); [rewrite P2|rewrite P3]; apply filter_incl'. }
  destruct X as [X1 X2]. split; auto. eapply sim_base; [exact X2|lia].
Qed.
Lemma sim_outcomes ins : forall s s', sim 0 s s' -> Forall2 (outcome_but_distances dh dr) (outcomes c s ins) (outcomes c' s' ins).
Proof.
  induction ins as [|x ins IH]; intros s s' S; cbn [outcomes]; [constructor|].
  assert (S0 : sim 0 (meanwhile s (put (s_heap s) (in_new x)) (s_gcount s)) (meanwhile s' (put (s_heap s') (in_new x)) (s_gcount s'))).
  { destruct S as [A C E F G H I J]. split; cbn; auto. unfold put. revert A. generalize (s_heap s), (s_heap s'). induction (in_new x) as [|[q d] l IHl]; intros h h' A r; cbn; auto.
    apply IHl. intros y. unfold upd. destruct (Nat.eqb y q); auto. }
  pose proof (sim_update (in_dets x) (in_period x) (in_ct x) _ _ S0) as [E1 S1]. constructor; [|apply IH, S1]. split.
  - symmetry. exact E1.
  - symmetry. apply (sm_tracked _ _ _ _ _ S1).
  - symmetry. apply (sm_count _ _ _ _ _ S1).
  - symmetry. apply (sm_gcount _ _ _ _ _ S1).
  - intros i Hi. pose proof (sm_known _ _ _ _ _ S1) as K. rewrite Forall_forall in K. apply orel_same. apply (sm_obj _ _ _ _ _ S1 i). apply K, Hi.
  - intros r. symmetry. apply (sm_heap _ _ _ _ _ S1).
Qed.
Theorem tracking_ordered ins h g dummy dummy' :
  Forall2 (outcome_but_distances dh dr) (outcomes c (new_tracker h g dummy) ins) (outcomes c' (new_tracker h g dummy') ins).
Proof. apply sim_outcomes. split; cbn; auto. intros i [X Y]. cbn in Y. lia. Qed.
End Run.

(** C106: two runs whose filters and distances are near each other. *)
From Coq Require Import ZArith Bool Arith String List Lia.
From Verif Require Import Model.Num Model.Base Model.Matching Model.Filter Model.Tracker Spec.MatchingSpec Spec.CallSpec Spec.ExampleVideo Spec.LabelSpec Spec.UnitSpec
  Spec.OrderSpec Spec.NearSpec Proofs.NumLaws Proofs.MatchingProofs Proofs.TrackerFrame Proofs.Effect Proofs.CallEffect Proofs.UnitLists Proofs.UnitSim Proofs.UnitRun.
Import ListNotations.

(** A filter without state, to compare objects with different filters. *)
Definition no_ops (N : Num) : filter_ops N := MkFilter N unit (fun _ => tt) (fun _ => tt) (fun _ _ _ => tt) (fun _ => []) (fun _ _ => tt).

Lemma Forall2_len {A B} (Q : A -> B -> Prop) l l' : Forall2 Q l l' -> List.length l = List.length l'.
Proof. induction 1; cbn; congruence. Qed.

Section Sim.
Context {N : Num} (laws : NumLaws N) {FO FO' : filter_ops N}.
Notation st := (st FO).
Notation st' := (Tracker.st FO').
Notation ct := (option (coord_transformation N)).
Variable near : dval N -> dval N -> Prop.
Variable R : fstate FO -> fstate FO' -> Prop.
Hypothesis near_inf : near DPInf DPInf.
Hypothesis near_nan : forall x y, near x y -> dis_nan x = false -> dis_nan y = false.
Hypothesis HF : filters_follow R.
(** When a table decides the matching. *)
Variable clear : dval N -> matrix N -> Prop.
Definition mnear (M M' : matrix N) : Prop := Forall2 (Forall2 near) M M'.
Hypothesis clear_match : forall rnd rnd' n m thr M M' res, can_stop rnd thr -> can_stop rnd' thr -> rect n m M -> nan_free M -> clear thr M -> mnear M M' ->
  match_dets_and_objs rnd thr M = Some res -> match_dets_and_objs rnd' thr M' = Some res.
Variable c : tconf FO.
Variable c' : tconf FO'.
Hypothesis Hc : nearly_alike near R c c'.

(** Everything that is equal. *)
Definition bare {FO : filter_ops N} (o : tobj FO) : tobj (no_ops N) :=
  MkObj (FO := no_ops N) (o_conf o) (o_hit o) (o_reid o) None None (o_last_det o) (o_age o) (o_initializing o) (o_id o) (o_gid o)
    (o_once o) (o_point_hits o) (o_past o) tt (o_abs_to_rel o).
Definition lrel (x x' : option (dval N)) : Prop := match x, x' with None, None => True | Some d, Some d' => near d d' | _, _ => False end.
Record orel (o : tobj FO) (o' : tobj FO') : Prop := MkORel {
  or_core : bare o = bare o';
  or_filter : R (o_filter o) (o_filter o');
  or_last : lrel (o_last_distance o) (o_last_distance o')
}.
Variable base : nat.
Definition known_in (s : st) (i : nat) : Prop := 1 <= i <= s_icount s.
Record sim (s : st) (s' : st') : Prop := MkSim {
  sm_heap : forall r, s_heap s r = s_heap s' r;
  sm_obj : forall i, known_in s i -> orel (s_store s i) (s_store s' i);
  sm_tracked : s_tracked s = s_tracked s';
  sm_known : Forall (known_in s) (s_tracked s);
  sm_count : s_count s = s_count s';
  sm_icount : s_icount s = s_icount s';
  sm_gcount : s_gcount s = s_gcount s';
  sm_base : base <= s_icount s
}.
(** If the first run returns so does the second one, with the same result. *)
Definition agree {A} (x : st * result A) (x' : st' * result A) : Prop :=
  forall a, snd x = Ret a -> snd x' = Ret a /\ sim (fst x) (fst x').

Ltac core E := match type of E with bare ?a = bare ?b =>
  destruct a as [? ? ? ? ? ? ? ? ? ? ? ? ? ? ?], b as [? ? ? ? ? ? ? ? ? ? ? ? ? ? ?]; unfold bare in E; cbn in E; injection E; clear E; intros; subst end.
Lemma orel_same o o' : orel o o' -> nearly_same near R o o'.
Proof. intros [A B C]. core A. split; auto. Qed.

(** ** Primitive changes *)
Lemma sim_obj i f f' s s' : sim s s' -> (orel (s_store s i) (s_store s' i) -> orel (f (s_store s i)) (f' (s_store s' i))) -> sim (mod_obj i f s) (mod_obj i f' s').
Proof. intros [A C E F G H I J] K. split; cbn; auto. intros j Hj. unfold upd. destruct (Nat.eqb_spec j i) as [->|Hne]; auto. Qed.
Lemma sim_det r f s s' : sim s s' -> sim (mod_det r f s) (mod_det r f s').
Proof. intros [A C E F G H I J]. split; cbn; auto. intros q. unfold upd. destruct (Nat.eqb_spec q r) as [->|]; auto. rewrite A. reflexivity. Qed.
Lemma sim_tracked l s s' : sim s s' -> Forall (known_in s) l -> sim (s_set_tracked l s) (s_set_tracked l s').
Proof. intros [A C E F G H I J] K. split; cbn; auto. Qed.
(** Changes that neither read nor write the filter and the two distances. *)
Definition plain (f : tobj FO -> tobj FO) (f' : tobj FO' -> tobj FO') : Prop := forall o o', orel o o' -> orel (f o) (f' o').
Lemma sim_plain i f f' s s' : plain f f' -> sim s s' -> sim (mod_obj i f s) (mod_obj i f' s').
Proof. intros P S. apply sim_obj; auto. Qed.
Ltac plain_ := let A := fresh in let B := fresh in let C := fresh in intros ? ? [A B C]; core A; split; [reflexivity|exact B|exact C].
Lemma sim_ids i s s' : sim s s' -> sim (acquire_ids i s) (acquire_ids i s').
Proof.
  intros S. unfold acquire_ids. rewrite (sm_count _ _ S), (sm_gcount _ _ S). apply sim_plain; [plain_|].
  destruct S as [A C E F G H I J]. split; cbn; auto.
Qed.

(** ** Methods of objects *)
Lemma agree_ret {A} (a : A) s s' : sim s s' -> agree (s, Ret a) (s', Ret a).
Proof. intros S b E. auto. Qed.
Lemma agree_raise {A} e s x : agree (A:=A) (s, Raise e) x.
Proof. intros b E. discriminate. Qed.
Lemma sim_core i s s' : known_in s i -> sim s s' -> bare (s_store s i) = bare (s_store s' i).
Proof. intros Hi S. exact (or_core _ _ (sm_obj _ _ S i Hi)). Qed.
Lemma core_eq {A} (f : forall FO : filter_ops N, tobj FO -> A) (o : tobj FO) (o' : tobj FO') : bare o = bare o' ->
  (forall FO (o : tobj FO), f (no_ops N) (bare o) = f FO o) -> f FO' o' = f FO o.
Proof. intros E H. rewrite <- (H FO o), <- (H FO' o'), E. reflexivity. Qed.
Ltac field K S i := rewrite ?(core_eq (fun F o => o_past o) _ _ (sim_core i _ _ K S) (fun _ _ => eq_refl)), ?(core_eq (fun F o => o_conf o) _ _ (sim_core i _ _ K S) (fun _ _ => eq_refl)),
  ?(core_eq (fun F o => o_age o) _ _ (sim_core i _ _ K S) (fun _ _ => eq_refl)), ?(core_eq (fun F o => o_hit o) _ _ (sim_core i _ _ K S) (fun _ _ => eq_refl)),
  ?(core_eq (fun F o => o_initializing o) _ _ (sim_core i _ _ K S) (fun _ _ => eq_refl)), ?(core_eq (fun F o => o_once o) _ _ (sim_core i _ _ K S) (fun _ _ => eq_refl)),
  ?(core_eq (fun F o => o_point_hits o) _ _ (sim_core i _ _ K S) (fun _ _ => eq_refl)), 
  ?(core_eq (fun F o => dim_z o) _ _ (sim_core i _ _ K S) (fun _ _ => eq_refl)), ?(core_eq (fun F o => o_last_det o) _ _ (sim_core i _ _ K S) (fun _ _ => eq_refl)).
Lemma sim_cond_add i r s s' : known_in s i -> sim s s' -> agree (cond_add_past i r s) (cond_add_past i r s').
Proof.
  intros Hi S. unfold cond_add_past. field Hi S i. set (o := s_store s i).
  destruct (Nat.eqb _ 0); [apply agree_ret, S|].
  destruct (Nat.ltb _ _).
  - apply agree_ret. apply sim_plain; [plain_|apply sim_det, S].
  - destruct (o_past o) as [|first rest]; [apply agree_raise|]. rewrite <- (sm_heap _ _ S). destruct (d_age _); [|apply agree_raise].
    destruct (_ <=? _)%Z; [|apply agree_ret, S]. apply agree_ret. apply sim_plain; [plain_|]. apply sim_det, S.
Qed.
Lemma agree_bind {A B} (x : st * result A) (x' : st' * result A) (f : st -> A -> st * result B) (f' : st' -> A -> st' * result B) :
  agree x x' -> (forall a s s', sim s s' -> x = (s, Ret a) -> agree (f s a) (f' s' a)) ->
  agree (match x with (s, Raise e) => (s, Raise e) | (s, Ret a) => f s a end) (match x' with (s, Raise e) => (s, Raise e) | (s, Ret a) => f' s a end).
Proof.
  intros X H. destruct x as [s [a|e]]; [|apply agree_raise]. destruct (X a eq_refl) as [E S]. destruct x' as [s' r']. cbn in E, S. subst r'. apply H; auto.
Qed.

Definition act (i : nat) : Prop := 1 <= i <= base.
Lemma act_known s s' i : sim s s' -> act i -> known_in s i.
Proof. intros S [A B]. pose proof (sm_base _ _ S). split; lia. Qed.
Lemma sim_hit i r p s s' : act i -> sim s s' -> agree (hit i r p s) (hit i r p s').
Proof.
  intros Hi S. unfold hit. apply agree_bind; [apply sim_cond_add; [apply (act_known _ _ _ S Hi)|exact S]|].
  intros _ t t' S0 _. clear S s s'.
  assert (S1 : sim (mod_obj i (set_last_det r) t) (mod_obj i (set_last_det r) t')) by (apply sim_plain; [plain_|exact S0]).
  set (a1 := mod_obj i (set_last_det r) t) in *. set (a2 := mod_obj i (set_last_det r) t') in *. clearbody a1 a2. clear S0 t t'.
  assert (S2 : sim (mod_obj i (fun o => set_hit (Z.min (o_hit o + 2 * p) (oc_hit_counter_max (o_conf o))) o) a1)
                   (mod_obj i (fun o => set_hit (Z.min (o_hit o + 2 * p) (oc_hit_counter_max (o_conf o))) o) a2)) by (apply sim_plain; [plain_|exact S1]).
  set (b1 := mod_obj i _ a1) in *. set (b2 := mod_obj i _ a2) in *. clearbody b1 b2. clear S1 a1 a2.
  field (act_known _ _ _ S2 Hi) S2 i.
  set (cnd := (o_initializing (s_store b1 i) && (oc_delay (o_conf (s_store b1 i)) <? o_hit (s_store b1 i))%Z)%bool).
  assert (S3 : sim (if cnd then acquire_ids i (mod_obj i (set_initializing false) b1) else b1)
                   (if cnd then acquire_ids i (mod_obj i (set_initializing false) b2) else b2))
    by (destruct cnd; auto; apply sim_ids; apply sim_plain; [plain_|exact S2]).
  set (c1 := if cnd then acquire_ids i (mod_obj i (set_initializing false) b1) else b1) in *.
  set (c2 := if cnd then acquire_ids i (mod_obj i (set_initializing false) b2) else b2) in *.
  clearbody c1 c2. clear S2 cnd b1 b2. pose proof (act_known _ _ _ S3 Hi) as K3. field K3 S3 i. rewrite <- (sm_heap _ _ S3 r).
  set (mask := over_threshold _ _ (s_heap c1 r)).
  set (counted := match d_scores (s_heap c1 r) with Some _ => mask | None => _ end).
  set (z := flatten (d_absolute_points (s_heap c1 r))).
  destruct (negb (Nat.eqb (List.length counted) _)); [apply agree_raise|].
  assert (S4 : sim (mod_obj i (fun o => set_point_hits (point_hits_update p (oc_pointwise_max (o_conf o)) counted (o_point_hits o)) o) c1)
                   (mod_obj i (fun o => set_point_hits (point_hits_update p (oc_pointwise_max (o_conf o)) counted (o_point_hits o)) o) c2))
    by (apply sim_plain; [plain_|exact S3]).
  set (x1 := mod_obj i _ c1) in *. set (x2 := mod_obj i _ c2) in *. clearbody x1 x2.
  destruct (negb _ || negb _)%bool; [apply agree_raise|]. set (diagonal := repeat_each _ _).
  assert (S5 : sim (mod_obj i (fun o => set_filter (f_update FO (o_filter o) z diagonal) o) x1)
                   (mod_obj i (fun o => set_filter (f_update FO' (o_filter o) z diagonal) o) x2)).
  { apply sim_plain; [|exact S4]. intros ? ? [A B C]. core A. split; cbn in *; auto. apply (ff_update _ HF), B. }
  set (y1 := mod_obj i _ x1) in *. set (y2 := mod_obj i _ x2) in *. clearbody y1 y2.
  destruct (negb (Nat.eqb (List.length (o_once _)) _)); [apply agree_raise|]. apply agree_ret.
  apply sim_plain; [plain_|]. apply sim_plain; [|exact S5]. intros ? ? [A B C]. core A. split; cbn in *; auto. apply (ff_reset _ HF), B.
Qed.
Lemma sim_add_pasts i rs : forall s s', act i -> sim s s' -> agree (add_pasts i rs s) (add_pasts i rs s').
Proof.
  induction rs as [|r rs IH]; intros s s' Hi S; cbn [add_pasts]; [apply agree_ret, S|].
  pose proof (sim_cond_add i r s s' (act_known _ _ _ S Hi) S) as X.
  destruct (cond_add_past i r s) as [t [u|e]]; [|apply agree_raise]. destruct (X u eq_refl) as [E S0].
  destruct (cond_add_past i r s') as [t' r']. cbn in E, S0. subst r'. apply IH; auto.
Qed.
Lemma sim_merge i j s s' : act i -> act j -> sim s s' -> agree (merge i j s) (merge i j s').
Proof.
  intros Hi Hj S. unfold merge. pose proof (act_known _ _ _ S Hj) as Kj. pose proof (sm_obj _ _ S j Kj) as OJ. field Kj S j.
  apply sim_add_pasts; auto. apply sim_obj; auto. intros [A B C]. destruct OJ as [A' B' C'].
  set (c1 := s_store s j) in *. set (c2 := s_store s' j) in *. set (o1 := s_store s i) in *. set (o2 := s_store s' i) in *. clearbody c1 c2 o1 o2.
  split; cbn; auto. clear -A A'. core A. core A'. reflexivity.
Qed.

(** ** Distances *)
Definition cand_ok (x : cand) : Prop := match x with CDet r => True | CObj i => act i end.
Lemma view_obj_same s s' i : sim s s' -> act i -> view_near near R (view_obj s i) (view_obj s' i).
Proof.
  intros S Hi. pose proof (act_known _ _ _ S Hi) as K. split; [apply orel_same, (sm_obj _ _ S i K)|]. unfold view_obj. cbn [v_last v_past]. field K S i.
  split; [symmetry; apply (sm_heap _ _ S)|]. apply map_ext. intros r. symmetry. apply (sm_heap _ _ S).
Qed.
Lemma view_cand_same s s' x : sim s s' -> cand_ok x -> cand_near near R (view_cand s x) (view_cand s' x).
Proof. intros S Hx. destruct x as [r|j]; cbn; [symmetry; apply (sm_heap _ _ S)|apply view_obj_same; auto]. Qed.
Lemma obj_label_same s s' i : sim s s' -> act i -> obj_label s' i = obj_label s i.
Proof. intros S Hi. unfold obj_label. field (act_known _ _ _ S Hi) S i. reflexivity. Qed.
Lemma cand_label_same s s' x : sim s s' -> cand_ok x -> cand_label s' x = cand_label s x.
Proof. intros S Hx. destruct x as [r|j]; cbn; [rewrite (sm_heap _ _ S r); reflexivity|]. apply (obj_label_same s s' j S Hx). Qed.

Lemma map_result_near {A B C} (Q : B -> C -> Prop) (f : A -> result B) (f' : A -> result C) l :
  (forall a b, In a l -> f a = Ret b -> exists b', f' a = Ret b' /\ Q b b') ->
  forall bs, map_result f l = Ret bs -> exists bs', map_result f' l = Ret bs' /\ Forall2 Q bs bs'.
Proof.
  induction l as [|a l IH]; cbn; intros H bs E; [injection E as <-; eauto|].
  destruct (f a) as [b|] eqn:Ea; [|discriminate]. destruct (H a b (or_introl eq_refl) Ea) as (b' & E' & Q'). rewrite E'.
  destruct (map_result f l) as [bl|]; [|discriminate]. injection E as <-.
  destruct (IH (fun a b I => H a b (or_intror I)) bl eq_refl) as (bl' & -> & QL). eauto.
Qed.
Section Phase.
Variables rnd rnd' : dval N -> dval N.
Lemma scalar_near f f' s s' objects cands : values_near near R rnd rnd' f f' -> sim s s' -> Forall act objects -> Forall cand_ok cands ->
  forall M, scalar_distances rnd f s objects cands = Ret M -> exists M', scalar_distances rnd' f' s' objects cands = Ret M' /\ mnear M M'.
Proof.
  intros Hf S Fo Fc. rewrite Forall_forall in Fo, Fc. unfold scalar_distances. apply map_result_near. intros x row Hx. apply map_result_near. intros i d Hi.
  rewrite (cand_label_same s s' x S (Fc x Hx)), (obj_label_same s s' i S (Fo i Hi)). destruct (negb _); [intros E; injection E as <-; eauto|].
  destruct (f (view_cand s x) (view_obj s i)) as [v|] eqn:E; [|discriminate]. intros X; injection X as <-.
  destruct (Hf _ _ _ _ v (view_cand_same s s' x S (Fc x Hx)) (view_obj_same s s' i S (Fo i Hi)) E) as (v' & -> & Hv). eauto.
Qed.
Lemma assign_row_near om : forall d d' r r', Forall2 near d d' -> Forall2 near r r' -> Forall2 near (assign_row om d r) (assign_row om d' r').
Proof.
  induction om as [|b om IH]; intros d d' r r' Hd Hr; cbn; auto. destruct b; destruct Hr as [|x y r r' Hxy Hr]; auto.
  destruct Hd as [|u v d d' Huv Hd]; constructor; auto.
Qed.
Lemma assign_rows_near om : forall cm D D' M M', mnear D D' -> mnear M M' -> mnear (assign_rows cm om D M) (assign_rows cm om D' M').
Proof.
  induction cm as [|b cm IH]; intros D D' M M' HD HM; cbn; auto. destruct b; destruct HM as [|x y M M' Hxy HM]; try (constructor; auto; fail); cbn.
  - destruct HD as [|u v D D' Huv HD]; constructor; auto.
    + apply IH; auto. constructor.
    + apply assign_row_near; auto.
    + apply IH; auto.
  - constructor; auto. apply IH; auto.
Qed.
Lemma mnear_lengths (D D' : matrix N) : mnear D D' -> map (@List.length _) D' = map (@List.length _) D.
Proof. induction 1 as [|x y D D' H HD IH]; cbn; [reflexivity|]. rewrite IH. f_equal. symmetry. eapply Forall2_len; eauto. Qed.
Lemma vector_near f f' s s' objects cands : matrices_near near R rnd rnd' f f' -> sim s s' -> Forall act objects -> Forall cand_ok cands ->
  forall labels M0 M0' M, mnear M0 M0' -> vectorized_loop rnd f s objects cands labels M0 = Ret M ->
  exists M', vectorized_loop rnd' f' s' objects cands labels M0' = Ret M' /\ mnear M M'.
Proof.
  intros Hf S Fo Fc. rewrite Forall_forall in Fo, Fc. induction labels as [|l labels IH]; intros M0 M0' M HM; cbn [vectorized_loop]; [intros E; injection E as <-; eauto|].
  assert (L1 : forall i, In i objects -> obj_label s' i = obj_label s i) by (intros i Hi; apply (obj_label_same s s' i S (Fo i Hi))).
  assert (L2 : forall i, In i cands -> cand_label s' i = cand_label s i) by (intros i Hi; apply (cand_label_same s s' i S (Fc i Hi))).
  assert (E1 : map (fun i => String.eqb (label_str (obj_label s' i)) l) objects = map (fun i => String.eqb (label_str (obj_label s i)) l) objects)
    by (apply map_ext_in; intros i Hi; rewrite (L1 i Hi); reflexivity).
  assert (E2 : map (fun c => String.eqb (label_str (cand_label s' c)) l) cands = map (fun c => String.eqb (label_str (cand_label s c)) l) cands)
    by (apply map_ext_in; intros i Hi; rewrite (L2 i Hi); reflexivity).
  assert (E3 : filter (fun i => String.eqb (label_str (obj_label s' i)) l) objects = filter (fun i => String.eqb (label_str (obj_label s i)) l) objects)
    by (apply filter_ext_in; intros i Hi; rewrite (L1 i Hi); reflexivity).
  assert (E4 : filter (fun c => String.eqb (label_str (cand_label s' c)) l) cands = filter (fun c => String.eqb (label_str (cand_label s c)) l) cands)
    by (apply filter_ext_in; intros i Hi; rewrite (L2 i Hi); reflexivity).
  rewrite E1, E2, E3, E4. set (objs := filter _ objects). set (cs := filter _ cands).
  assert (Fc' : forall x, In x cs -> cand_ok x) by (intros x Hx; apply filter_In in Hx as [Hx _]; auto).
  assert (Fo' : forall i, In i objs -> act i) by (intros i Hx; apply filter_In in Hx as [Hx _]; auto).
  assert (P : forall (F : filter_ops N) (t : Tracker.st F), map (cand_vector t) cs = map coordinates (map (view_cand t) cs)).
  { intros F t. rewrite map_map. apply map_ext. intros [r|j]; reflexivity. }
  assert (Q : forall (F : filter_ops N) (t : Tracker.st F), map (fun i => flatten (estimate (s_store t i))) objs = map (fun v => flatten (estimate (v_obj v))) (map (view_obj t) objs)).
  { intros F t. rewrite map_map. reflexivity. }
  rewrite (P FO s), (P FO' s'), (Q FO s), (Q FO' s'). destruct (stack (map _ (map (view_obj s) objs))) as [qs|] eqn:Eq; [|discriminate]. destruct (stack (map _ (map (view_cand s) cs))) as [ps|] eqn:Ep; [|discriminate].
  destruct (f ps qs) as [D|] eqn:E; [|discriminate].
  assert (FC : Forall2 (cand_near near R) (map (view_cand s) cs) (map (view_cand s') cs)).
  { clear -Fc' S. induction cs as [|x l0 IHl]; cbn; constructor; [apply view_cand_same; auto; apply Fc'; left; reflexivity|]. apply IHl. intros; apply Fc'; right; auto. }
  assert (FO_ : Forall2 (view_near near R) (map (view_obj s) objs) (map (view_obj s') objs)).
  { clear -Fo' S. induction objs as [|x l0 IHl]; cbn; constructor; [apply view_obj_same; auto; apply Fo'; left; reflexivity|]. apply IHl. intros; apply Fo'; right; auto. }
  destruct (Hf _ _ _ _ ps qs D FC FO_ Ep Eq E) as (ps' & qs' & D' & -> & -> & -> & HD).
  pose proof (mnear_lengths _ _ HD) as El. rewrite !map_map in El.
  assert (El' : map (@List.length _) D' = map (@List.length _) D).
  { transitivity (map (fun x => List.length (map rnd' x)) D'); [apply map_ext; intros; rewrite map_length; reflexivity|].
    rewrite El. apply map_ext. intros. rewrite map_length. reflexivity. }
  assert (El1 : List.length D' = List.length D) by (rewrite <- (map_length (@List.length _) D'), El'; apply map_length).
  assert (El2 : forall n, forallb (fun r : list (dval N) => Nat.eqb (List.length r) n) D' = forallb (fun r : list (dval N) => Nat.eqb (List.length r) n) D).
  { intros n. assert (X : forall D : list (list (dval N)), forallb (fun r : list (dval N) => Nat.eqb (List.length r) n) D = forallb (fun x => Nat.eqb x n) (map (@List.length _) D))
      by (clear; induction D; cbn; congruence). rewrite !X, El'. reflexivity. }
  rewrite El1, El2. destruct (_ && _)%bool; [|discriminate]. apply IH. apply assign_rows_near; auto.
Qed.
Definition distance_near (d : distance FO) (d' : distance FO') : Prop :=
  match d, d' with
  | ScalarDistance f, ScalarDistance f' => values_near near R rnd rnd' f f'
  | VectorizedDistance f, VectorizedDistance f' => matrices_near near R rnd rnd' f f'
  | _, _ => False
  end.
Lemma distances_near d d' s s' objects cands : distance_near d d' -> sim s s' -> Forall act objects -> Forall cand_ok cands ->
  forall M, get_distances rnd d s objects cands = Ret M -> exists M', get_distances rnd' d' s' objects cands = Ret M' /\ mnear M M'.
Proof.
  intros Hd S Fo Fc M. destruct d as [f|f], d' as [f'|f']; cbn in *; try contradiction; [apply scalar_near; auto|]. unfold vectorized_distances.
  assert (E1 : map (fun i => label_str (obj_label s' i)) objects = map (fun i => label_str (obj_label s i)) objects).
  { apply map_ext_in. intros i Hi. rewrite Forall_forall in Fo. rewrite (obj_label_same s s' i S (Fo i Hi)). reflexivity. }
  assert (E2 : map (fun c => label_str (cand_label s' c)) cands = map (fun c => label_str (cand_label s c)) cands).
  { apply map_ext_in. intros i Hi. rewrite Forall_forall in Fc. rewrite (cand_label_same s s' i S (Fc i Hi)). reflexivity. }
  rewrite E1, E2. set (M0 := map (fun _ => map (fun _ => DPInf) objects) cands : matrix N).
  assert (EM : mnear M0 M0).
  { unfold M0. clear -near_inf. induction cands as [|x l IH]; cbn; constructor; auto. clear IH. induction objects as [|y l' IH]; cbn; constructor; auto. }
  destruct objects as [|o objects]; [intros E; injection E as <-; eauto|]. destruct cands as [|x cands]; [intros E; injection E as <-; eauto|].
  apply vector_near; auto.
Qed.

(** ** The association *)
Variable thr : dval N.
Hypothesis Hs : can_stop rnd thr.
Hypothesis Hs' : can_stop rnd' thr.
Lemma sim_min M M' objects : forall j s s', sim s s' -> sim (set_min_distances thr M j objects s) (set_min_distances thr M' j objects s').
Proof.
  induction objects as [|i objects IH]; intros j s s' S; cbn; auto. apply IH. apply sim_obj; auto. intros [A B C]. split; auto.
Qed.
Lemma sim_min1 M objects : forall j s s', sim s s' -> sim (set_min_distances thr M j objects s) s'.
Proof.
  induction objects as [|i objects IH]; intros j s s' S; cbn; auto. apply IH. destruct S as [A C E F G H I J]. split; cbn; auto.
  intros k Hk. unfold upd. destruct (Nat.eqb_spec k i) as [->|Hne]; auto. destruct (C i Hk) as [X Y Z]. split; auto. 
Qed.
Lemma sim_min2 M objects : forall j s s', sim s s' -> sim s (set_min_distances thr M j objects s').
Proof.
  induction objects as [|i objects IH]; intros j s s' S; cbn; auto. apply IH. destruct S as [A C E F G H I J]. split; cbn; auto.
  intros k Hk. unfold upd. destruct (Nat.eqb_spec k i) as [->|Hne]; auto. destruct (C i Hk) as [X Y Z]. split; auto.
Qed.
Lemma entry_near M M' i j : mnear M M' -> dis_nan (entry M i j) = false -> near (entry M i j) (entry M' i j).
Proof.
  intros H. unfold entry. revert i. induction H as [|r r' M M' Hr HM IH]; intros [|i]; cbn; try (destruct j; discriminate); auto.
  clear IH. revert j. induction Hr as [|x y r r' Hxy Hr IH]; intros [|j]; cbn; try discriminate; auto.
Qed.
Lemma sim_matches M M' objects cands p pairs : Forall act objects -> Forall cand_ok cands -> mnear M M' ->
  (forall i j, In (i, j) pairs -> dltb (entry M i j) thr = true /\ dltb (entry M' i j) thr = true) ->
  forall uc mo uo s s', sim s s' ->
  agree (apply_matches thr M objects cands p pairs uc mo uo s) (apply_matches thr M' objects cands p pairs uc mo uo s').
Proof.
  intros Fo Fc HM. rewrite Forall_forall in Fo, Fc. induction pairs as [|[ci oi] pairs IH]; intros HB uc mo uo s s' S; [apply agree_ret, S|].
  cbn [apply_matches]. destruct (HB ci oi (or_introl eq_refl)) as [B1 B2].
  assert (HB' : forall i j, In (i, j) pairs -> dltb (entry M i j) thr = true /\ dltb (entry M' i j) thr = true) by (intros; apply HB; right; auto).
  destruct (nth_error cands ci) as [x|] eqn:Ec; [|apply agree_raise].
  destruct (nth_error objects oi) as [i|] eqn:Ei; [|apply agree_raise].
  apply nth_error_In in Ec, Ei. apply Fc in Ec. apply Fo in Ei. rewrite B1, B2. destruct x as [r|j]; cbn in Ec.
  - apply agree_bind; [apply sim_hit; auto|]. intros _ t1 t2 S' _. apply IH; auto. apply sim_obj; auto. intros [A B C]. split; cbn; auto.
    apply entry_near; auto. apply dltb_not_nan in B1. apply B1.
  - apply agree_bind; [apply sim_merge; auto|]. intros _ t1 t2 S' _.
    rewrite <- (sm_tracked _ _ S'). destruct (existsb _ _); [|apply agree_raise].
    apply IH; auto. apply sim_tracked; auto. apply remove_first_Forall, (sm_known _ _ S').
Qed.
Lemma mnear_nan M M' : mnear M M' -> existsb dis_nan (List.concat M) = false -> existsb dis_nan (List.concat M') = false.
Proof.
  induction 1 as [|r r' M M' Hr HM IH]; cbn; auto. rewrite !existsb_app, !orb_false_iff. intros [A B]. split; auto. clear IH HM B.
  induction Hr as [|x y r r' Hxy Hr IH]; cbn in *; auto. apply orb_false_iff in A as [A1 A2]. apply orb_false_iff. split; eauto.
Qed.
Lemma mnear_rect n m M M' : mnear M M' -> rect n m M -> rect n m M'.
Proof.
  intros H [L F]. pose proof (mnear_lengths _ _ H) as E. split; [rewrite <- L; symmetry; eapply Forall2_len; exact H|].
  rewrite Forall_forall in F. apply Forall_forall. intros r Hr. apply (in_map (@List.length _)) in Hr. rewrite E in Hr.
  apply in_map_iff in Hr as (q & E' & Hq). rewrite <- E'. auto.
Qed.
Lemma sim_phase d d' objects cands p s s' : distance_near d d' -> Forall act objects -> Forall cand_ok cands ->
  (cands <> [] -> forall M, get_distances rnd d s objects cands = Ret M -> clear thr M) -> sim s s' ->
  agree (update_objects_in_place rnd d thr objects cands p s) (update_objects_in_place rnd' d' thr objects cands p s').
Proof.
  intros Hd Fo Fc HC S. unfold update_objects_in_place. destruct cands as [|c0 cands0]; [apply agree_ret, S|].
  specialize (HC ltac:(discriminate)).
  set (cands := c0 :: cands0) in *. clearbody cands.
  destruct (get_distances rnd d s objects cands) as [M|e] eqn:EM; [|apply agree_raise].
  destruct (distances_near d d' s s' objects cands Hd S Fo Fc M EM) as (M' & -> & HM).
  pose proof (get_distances_rect _ _ _ _ _ _ EM) as Rc. specialize (HC M eq_refl).
  destruct (existsb dis_nan (List.concat M)) eqn:En; [apply agree_raise|]. rewrite (mnear_nan M M' HM En).
  set (t1 := if existsb dtruth (List.concat M) then _ else s). set (t2 := if existsb dtruth (List.concat M') then _ else s').
  assert (S' : sim t1 t2) by (unfold t1, t2; do 2 destruct (existsb dtruth _); auto using sim_min, sim_min1, sim_min2).
  clearbody t1 t2. destruct (match_dets_and_objs rnd thr M) as [[cis ois]|] eqn:EX; [|apply agree_raise].
  pose proof (clear_match rnd rnd' _ _ thr M M' _ Hs Hs' Rc En HC HM EX) as EX'. rewrite EX'.
  assert (HB : forall i j, In (i, j) (combine cis ois) -> dltb (entry M i j) thr = true /\ dltb (entry M' i j) thr = true).
  { assert (Hn : forall r, can_stop r thr -> dis_nan (r (dsucc thr)) = dis_nan thr \/ cis = []).
    { intros r [A B]. rewrite A. destruct (dis_nan thr) eqn:X; [right|left; reflexivity].
      assert (Z : match_dets_and_objs rnd thr M = Some ([], [])).
      { unfold match_dets_and_objs. apply (match_loop_none laws _ _ _ _ _ _ _ _ Rc En). intros i j _ _ Hl. destruct thr; try discriminate. unfold dlt in Hl. destruct (entry M i j); discriminate. }
      rewrite Z in EX. congruence. }
    intros i j Hin. destruct (Hn rnd Hs) as [H1| ->]; [|destruct Hin]. destruct (Hn rnd' Hs') as [H2| ->]; [|destruct Hin].
    split.
    - destruct (match_correct laws _ _ _ _ _ _ _ Rc En H1 EX) as (_ & _ & _ & B & _). apply (B i j Hin).
    - destruct (match_correct laws _ _ _ _ _ _ _ (mnear_rect _ _ _ _ HM Rc) (mnear_nan M M' HM En) H2 EX') as (_ & _ & _ & B & _). apply (B i j Hin). }
  destruct cis as [|a cis]; [apply agree_ret, S'|]. apply sim_matches; auto.
Qed.
End Phase.

(** ** Whole calls *)
Variable T : ct.
Lemma sim_create r p s s' : sim s s' -> sim (create_object c r p T s) (create_object c' r p T s').
Proof.
  intros HS. unfold create_object. destruct (na_same _ _ _ _ Hc) as (C1 & C2 & C3 & C4 & C5 & C6). rewrite C1, C2, C3, C4, C5, C6.
  rewrite <- (sm_heap _ _ HS r), <- (sm_icount _ _ HS), <- (sm_gcount _ _ HS), <- (sm_tracked _ _ HS), <- (sm_count _ _ HS).
  set (d := s_heap s r). set (iid := S (s_icount s)).
  set (o := MkObj (FO := FO) _ p None None None r 0%Z _ None None _ _ _ _ _). set (o' := MkObj (FO := FO') _ p None None None r 0%Z _ None None _ _ _ _ _).
  assert (S1 : sim (MkSt (s_heap s) (s_gcount s) (upd (s_store s) iid o) (s_tracked s) (s_count s) iid)
                   (MkSt (s_heap s') (s_gcount s) (upd (s_store s') iid o') (s_tracked s) (s_count s) iid)).
  { destruct HS as [A C E F G H I J]. split; cbn; auto.
    - intros i [Hi1 Hi2]. cbn in Hi2. unfold upd. destruct (Nat.eqb_spec i iid) as [->|Hne]; [split; cbn; auto; apply (ff_create _ HF)|]. apply C. split; cbn; lia.
    - eapply Forall_impl; [|exact F]. intros i [X Y]. split; cbn; unfold iid; lia.
    - unfold iid. lia. }
  set (x1 := MkSt (s_heap s) _ _ _ _ _) in *. set (x2 := MkSt (s_heap s') _ _ _ _ _) in *.
  assert (Hk : known_in x1 iid) by (unfold x1, iid; split; cbn; lia).
  assert (S2 : sim (mod_det r (d_set_age 0) (if o_initializing o then x1 else acquire_ids iid x1))
                   (mod_det r (d_set_age 0) (if o_initializing o then x2 else acquire_ids iid x2)))
    by (apply sim_det; destruct (o_initializing o); auto; apply sim_ids; auto).
  assert (Hk2 : known_in (mod_det r (d_set_age 0) (if o_initializing o then x1 else acquire_ids iid x1)) iid) by (destruct (o_initializing o); exact Hk).
  change ((p <=? tc_delay c)%Z) with (o_initializing o).
  set (y1 := mod_det r _ (if o_initializing o then x1 else _)) in *. set (y2 := mod_det r _ (if o_initializing o then x2 else _)) in *. clearbody y1 y2.
  rewrite <- (sm_tracked _ _ S2). apply sim_tracked; auto. apply Forall_app. split; [exact (sm_known _ _ S2)|]. constructor; auto.
Qed.
Lemma sim_creates cands p : forall s s', sim s s' -> agree (create_objects c cands p T s) (create_objects c' cands p T s').
Proof.
  induction cands as [|x cands IH]; intros s s' S; cbn; [apply agree_ret, S|]. destruct x as [r|j]; [|apply agree_raise]. apply IH. apply sim_create; auto.
Qed.
Lemma filter_same s s' (f : forall FO : filter_ops N, tobj FO -> bool) l : sim s s' -> (forall FO (o : tobj FO), f (no_ops N) (bare o) = f FO o) -> Forall (known_in s) l ->
  filter (fun i => f FO' (s_store s' i)) l = filter (fun i => f FO (s_store s i)) l.
Proof.
  intros S Hf K. rewrite Forall_forall in K. apply filter_ext_in. intros i Hi. exact (core_eq f _ _ (sim_core i s s' (K i Hi) S) Hf).
Qed.
Lemma active_same s s' : sim s s' -> get_active_objects s' = get_active_objects s.
Proof.
  intros S. unfold get_active_objects. rewrite <- (sm_tracked _ _ S).
  apply (filter_same s s' (fun FO o => negb (o_initializing o) && hit_counter_is_positive o)%bool); auto. exact (sm_known _ _ S).
Qed.
Definition table (dist : distance FO) (objects : list nat) (candidates : list cand) (s : st) : matrix N :=
  match get_distances (tc_rnd c) dist s objects candidates with Ret M => M | Raise _ => [] end.
Lemma sim_main objects cands p s s' : Forall act objects -> Forall cand_ok cands -> clear (tc_threshold c) (table (tc_distance c) objects cands s) -> sim s s' ->
  agree (update_objects_in_place (tc_rnd c) (tc_distance c) (tc_threshold c) objects cands p s)
        (update_objects_in_place (tc_rnd c') (tc_distance c') (tc_threshold c') objects cands p s').
Proof.
  intros Fo Fc HC S. destruct (na_stops _ _ _ _ Hc) as (H1 & H2 & _). destruct (na_thresholds _ _ _ _ Hc) as [-> _].
  apply (sim_phase (tc_rnd c) (tc_rnd c')); auto; [exact (na_distance _ _ _ _ Hc)|]. intros _ M EM. unfold table in HC. rewrite EM in HC. exact HC.
Qed.
Lemma sim_reid objects matched p s s' : Forall act objects -> Forall act matched ->
  (forall f, tc_reid_distance c = Some f -> clear (tc_reid_threshold c) (table (ScalarDistance f) objects (map CObj matched) s)) ->
  sim s s' -> agree (reid_phase c objects matched p s) (reid_phase c' objects matched p s').
Proof.
  intros Fo Fm HC S. unfold reid_phase. pose proof (na_reid _ _ _ _ Hc) as CR. destruct (na_stops _ _ _ _ Hc) as (_ & _ & CS).
  destruct (na_thresholds _ _ _ _ Hc) as [_ ->].
  destruct (tc_reid_distance c) as [f|], (tc_reid_distance c') as [f'|]; try contradiction; [|apply agree_ret, S].
  destruct (CS ltac:(discriminate)) as [H1 H2]. specialize (HC f eq_refl).
  assert (Fm' : Forall cand_ok (map CObj matched)) by (rewrite Forall_map; exact Fm).
  apply agree_bind; [|intros; apply agree_ret; auto].
  apply (sim_phase (tc_rnd c) (tc_rnd c')); auto. intros _ M EM. unfold table in HC. rewrite EM in HC. exact HC.
Qed.
Definition later_tables (alive dead dets : list nat) (p : Z) (s0 : st) : list (dval N * matrix N) :=
  let ini := filter (fun i => negb (o_initializing (s_store s0 i))) alive in
  (tc_threshold c, table (tc_distance c) ini (map CDet dets) s0) ::
  match update_objects_in_place (tc_rnd c) (tc_distance c) (tc_threshold c) ini (map CDet dets) p s0 with
  | (_, Raise _) => []
  | (s1, Ret (rest, _, lost)) =>
    let uni := filter (fun i => o_initializing (s_store s1 i)) alive in
    (tc_threshold c, table (tc_distance c) uni rest s1) ::
    match update_objects_in_place (tc_rnd c) (tc_distance c) (tc_threshold c) uni rest p s1, tc_reid_distance c with
    | (s2, Ret (_, found, _)), Some f => [(tc_reid_threshold c, table (ScalarDistance f) (lost ++ dead) (map CObj found) s2)]
    | _, _ => []
    end
  end.
Lemma sim_associate alive dead dets p s s' : Forall act alive -> Forall act dead ->
  (forall thr M, In (thr, M) (later_tables alive dead dets p s) -> clear thr M) -> sim s s' ->
  agree (associate c alive dead dets p T s) (associate c' alive dead dets p T s').
Proof.
  intros Fa Fd HC S. unfold associate.
  assert (Fk : forall t t', sim t t' -> Forall (known_in t) alive) by (intros t t' St; eapply Forall_impl; [|exact Fa]; intros i; apply (act_known _ _ _ St)).
  rewrite (filter_same s s' (fun FO o => negb (o_initializing o)) alive S (fun _ _ => eq_refl)) by eauto.
  assert (Fdets : Forall cand_ok (map CDet dets)) by (rewrite Forall_map; apply Forall_forall; cbn; auto).
  unfold later_tables in HC. cbv zeta in HC.
  apply agree_bind; [apply sim_main; auto; [eapply Forall_incl; [apply filter_incl'|exact Fa]|apply HC; left; reflexivity]|].
  intros [[um mo] ui] t t' S' U. rewrite U in HC.
  apply uip_unmatched_incl in U as (_ & Iui & Ium).
  assert (Fum : Forall cand_ok um) by (eapply Forall_incl; eauto).
  assert (Fui : Forall act ui) by (eapply Forall_incl; [exact Iui|eapply Forall_incl; [apply filter_incl'|exact Fa]]).
  rewrite (filter_same t t' (fun FO o => o_initializing o) alive S' (fun _ _ => eq_refl)) by eauto.
  apply agree_bind; [apply sim_main; auto; [eapply Forall_incl; [apply filter_incl'|exact Fa]|apply HC; right; left; reflexivity]|].
  intros [[vm vo] vi] v v' S'' V. rewrite V in HC.
  apply uip_unmatched_incl in V as (Ivo & _ & Ivm).
  assert (Fvo : Forall act vo) by (eapply Forall_incl; [exact Ivo|eapply Forall_incl; [apply filter_incl'|exact Fa]]).
  apply agree_bind; [apply sim_reid; auto; [apply Forall_app; auto|]|].
  { intros f Ef. apply HC. rewrite Ef. right. right. left. reflexivity. }
  intros _ w w' Q _. apply agree_bind; [apply sim_creates, Q|]. intros _ z z' Q' _. rewrite (active_same z z' Q'). apply agree_ret, Q'.
Qed.

(** ** The beginning of a call *)
Lemma sim_steps objs : forall s s', sim s s' -> sim (step_objects T objs s) (step_objects T objs s').
Proof.
  induction objs as [|i objs IH]; intros s s' S; cbn; auto. apply IH, sim_plain; auto. intros ? ? [A B C]. core A. cbn in B. destruct T; (split; [reflexivity|apply (ff_predict _ HF), B|exact C]).
Qed.
Lemma sim_dets dets : forall s s', sim s s' ->
  sim (match T with None => s | Some T => update_dets_ct T dets s end) (match T with None => s' | Some T => update_dets_ct T dets s' end).
Proof. destruct T as [T0|]; auto. induction dets as [|r dets IH]; intros s s' S; cbn; auto. apply IH. apply sim_det, S. Qed.
Lemma prune_same s s' : sim s s' -> prune c' s' = prune c s.
Proof.
  intros S. unfold prune. destruct (na_same _ _ _ _ Hc) as (_ & _ & _ & _ & _ & C3). rewrite C3.
  rewrite <- (sm_tracked _ _ S). pose proof (sm_known _ _ S) as K.
  destruct (tc_reid_max c).
  - rewrite (filter_same s s' (fun FO o => reid_hit_counter_is_positive o) (s_tracked s) S (fun _ _ => eq_refl) K).
    set (tr := filter _ (s_tracked s)). assert (Kt : Forall (known_in s) tr) by (eapply Forall_incl; [apply filter_incl'|exact K]).
    rewrite (filter_same s s' (fun FO o => hit_counter_is_positive o) tr S (fun _ _ => eq_refl) Kt).
    rewrite (filter_same s s' (fun FO o => negb (hit_counter_is_positive o)) tr S (fun _ _ => eq_refl) Kt). reflexivity.
  - rewrite (filter_same s s' (fun FO o => hit_counter_is_positive o) (s_tracked s) S (fun _ _ => eq_refl) K). reflexivity.
Qed.
End Sim.

Section Run.
Context {N : Num} (laws : NumLaws N) {FO FO' : filter_ops N}.
Variable near : dval N -> dval N -> Prop.
Variable R : fstate FO -> fstate FO' -> Prop.
Hypothesis near_inf : near DPInf DPInf.
Hypothesis near_nan : forall x y, near x y -> dis_nan x = false -> dis_nan y = false.
Hypothesis HF : filters_follow R.
Variable clear : dval N -> matrix N -> Prop.
Hypothesis clear_match : forall rnd rnd' n m thr M M' res, can_stop rnd thr -> can_stop rnd' thr -> rect n m M -> nan_free M -> clear thr M -> mnear near M M' ->
  match_dets_and_objs rnd thr M = Some res -> match_dets_and_objs rnd' thr M' = Some res.
Variable c : tconf FO.
Variable c' : tconf FO'.
Hypothesis Hc : nearly_alike near R c c'.
Notation sim := (sim near R).
Lemma sim_base base base' s s' : sim base s s' -> base' <= s_icount s -> sim base' s s'.
Proof. intros [A C E F G H I J] L. split; auto. Qed.
Lemma tables_eq dets p T s : tables c dets p T s = let '(alive, dead, s0) := begin_update c dets T s in later_tables c alive dead dets p s0.
Proof. reflexivity. Qed.
Lemma sim_update dets p T s s' : (forall thr M, In (thr, M) (tables c dets p T s) -> clear thr M) -> sim 0 s s' ->
  agree near R 0 (update c (Some dets) p T s) (update c' (Some dets) p T s').
Proof.
  intros HC S.
  assert (E : forall (F : filter_ops N) (cf : tconf F) Q t, update cf (Some dets) p Q t =
    let '(alive, dead, t') := begin_update cf dets Q t in associate cf alive dead dets p Q t') by (intros F cf [Q|] t; reflexivity).
  rewrite tables_eq in HC.
  rewrite (E FO c T s), (E FO' c' T s'). clear E. unfold begin_update in *. pose proof (sim_dets near R 0 T dets s s' S) as S1.
  set (t := match T with None => s | Some T => update_dets_ct T dets s end) in *. set (t' := match T with None => s' | Some T => update_dets_ct T dets s' end) in *.
  apply sim_base with (base' := s_icount t) in S1; [|lia]. rewrite (prune_same near R c c' Hc (s_icount t) t t' S1).
  pose proof (prune_spec c t) as PS. destruct (prune c t) as [[tr al] de]. destruct PS as (P1 & P2 & P3).
  pose proof (sm_known _ _ _ _ _ S1) as K.
  assert (Kt : Forall (known_in t) tr) by (subst tr; eapply Forall_incl; [apply filter_incl'|exact K]).
  assert (S2 := sim_tracked near R (s_icount t) tr t t' S1 Kt). assert (S3 := sim_steps near R HF (s_icount t) T tr _ _ S2).
  assert (X : agree near R (s_icount t) (associate c al de dets p T (step_objects T tr (s_set_tracked tr t)))
     (associate c' al de dets p T (step_objects T tr (s_set_tracked tr t')))).
  { apply (sim_associate laws near R near_inf near_nan HF clear clear_match); auto; (eapply Forall_incl; [|exact Kt]); [rewrite P2|rewrite P3]; apply filter_incl'. }
  intros a Ea. destruct (X a Ea) as [X1 X2]. split; auto. eapply sim_base; [exact X2|lia].
Qed.
Theorem sim_play ins : forall s s' fa, sim 0 s s' -> play c s ins = Some fa ->
  (forall f, In f fa -> forall thr M, In (thr, M) (tables c (f_dets f) (f_period f) (f_ct f) (f_pre f)) -> clear thr M) ->
  exists fb, play c' s' ins = Some fb /\ Forall2 (same_frame near R) fa fb.
Proof.
  induction ins as [|x ins IH]; intros s s' fa S; cbn [play]; [intros E _; injection E as <-; eauto|].
  set (p := meanwhile s (put (s_heap s) (in_new x)) (s_gcount s)). set (p' := meanwhile s' (put (s_heap s') (in_new x)) (s_gcount s')).
  assert (S0 : sim 0 p p').
  { destruct S as [A C E F G H I J]. split; cbn; auto. unfold put. revert A. generalize (s_heap s), (s_heap s'). induction (in_new x) as [|[q d] l IHl]; intros h h' A r; cbn; auto.
    apply IHl. intros y. unfold upd. destruct (Nat.eqb y q); auto. }
  clearbody p p'. destruct (update c (Some (in_dets x)) (in_period x) (in_ct x) p) as [t [out|e]] eqn:U; [|discriminate].
  destruct (play c t ins) as [fs|] eqn:P; [|discriminate]. intros E; injection E as <-. intros HC.
  destruct (sim_update (in_dets x) (in_period x) (in_ct x) p p') with (a := out) as [E1 S1]; auto.
  { exact (HC _ (or_introl eq_refl)). }
  { rewrite U. reflexivity. }
  rewrite U in S1. destruct (update c' (Some (in_dets x)) (in_period x) (in_ct x) p') as [t' r']. cbn [fst snd] in E1, S1. subst r'.
  destruct (IH t t' fs S1 P) as (fb & -> & Q); [intros f Hf; apply HC; right; auto|]. eexists. split; [reflexivity|]. constructor; auto. split; cbn.
  - reflexivity.
  - symmetry. apply (sm_tracked _ _ _ _ _ S1).
  - symmetry. apply (sm_count _ _ _ _ _ S1).
  - symmetry. apply (sm_gcount _ _ _ _ _ S1).
  - intros i Hi. pose proof (sm_known _ _ _ _ _ S1) as K. rewrite Forall_forall in K. apply orel_same. apply (sm_obj _ _ _ _ _ S1 i). apply K, Hi.
  - intros r. symmetry. apply (sm_heap _ _ _ _ _ S1).
Qed.
Theorem tracking_near ins h g dummy dummy' fa : play c (new_tracker h g dummy) ins = Some fa ->
  (forall f, In f fa -> forall thr M, In (thr, M) (tables c (f_dets f) (f_period f) (f_ct f) (f_pre f)) -> clear thr M) ->
  exists fb, play c' (new_tracker h g dummy') ins = Some fb /\ Forall2 (same_frame near R) fa fb.
Proof. apply sim_play. split; cbn; auto. intros i [X Y]. cbn in Y. lia. Qed.
End Run.

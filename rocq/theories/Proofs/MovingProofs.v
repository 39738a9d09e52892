(** Tracking through a translating camera (C44). *)
From Coq Require Import ZArith Bool Arith String List Lia Ring.
From Verif Require Import Model.Num Model.Base Model.Matching Model.Filter Model.Tracker Model.CameraMotion Proofs.TrackerFrame Proofs.Simulation Proofs.Simulation2
  Proofs.IsolationProofs Spec.PointSpec Spec.CallSpec Spec.ExampleVideo Spec.MovingSpec.
Import ListNotations.

Section M.
Context {N : Num} {FO : filter_ops N}.
Notation st := (st FO).
Notation tobj := (tobj FO).
Hypothesis RT : ring_num N.

(** ** Arrays *)
Lemma chunks_flat d (x : list N) : 0 < d -> forall fuel, length x <= fuel -> concat (chunks_fuel fuel d x) = x.
Proof.
  intros Hd fuel. revert x. induction fuel as [|fuel IH]; intros [|a x] H; cbn in *; auto; try lia.
  destruct d as [|d]; [lia|]. cbn. f_equal. rewrite IH; [apply firstn_skipn|]. rewrite skipn_length. lia.
Qed.
Lemma reshape_flat d (x : list N) : 0 < d -> flatten (reshape_rows d x) = x.
Proof. intros Hd. apply chunks_flat; auto. Qed.
Lemma fits_reshape v (x : list N) : 0 < length v -> fits v (reshape_rows (length v) x).
Proof. intros Hv. unfold fits. rewrite reshape_flat; auto. Qed.
Lemma fits_nil v : fits (N:=N) v [].
Proof. reflexivity. Qed.
Lemma fits_rows v (p : points N) : fits v p -> Forall (fun row => length row <= length v) p.
Proof.
  unfold fits. intros ->. unfold reshape_rows. generalize (length (flatten p)) as fuel. generalize (flatten p) as x. intros x fuel. revert x.
  induction fuel as [|fuel IH]; intros [|a x]; cbn; constructor; auto. rewrite firstn_length. lia.
Qed.
Lemma fits_exact v (p : points N) : 0 < length v -> Forall (fun row => length row = length v) p -> fits v p.
Proof.
  intros Hv Hp. unfold fits, reshape_rows.
  assert (X : forall fuel, length (flatten p) <= fuel -> p = chunks_fuel fuel (length v) (flatten p)); [|apply X; auto].
  induction Hp as [|row p Hr Hp IH]; intros fuel Hf; [destruct fuel; reflexivity|]. cbn [flatten concat] in *. change (concat p) with (flatten p) in *.
  rewrite app_length in Hf. destruct fuel as [|fuel]; [lia|].
  destruct (row ++ flatten p) as [|a l] eqn:E; [destruct row; cbn in *; [lia|discriminate]|]. cbn [chunks_fuel]. rewrite <- E.
  rewrite <- Hr, firstn_app, Nat.sub_diag, firstn_all, firstn_O, app_nil_r. rewrite skipn_app, skipn_all, Nat.sub_diag. cbn [skipn app].
  f_equal. rewrite Hr. apply IH. lia.
Qed.
Lemma map2_length {A B C} (f : A -> B -> C) a : forall b, length a <= length b -> length (map2 f a b) = length a.
Proof. unfold map2. intros b H. rewrite map_length, combine_length. lia. Qed.
Lemma unmoved v (p : points N) : Forall (fun row => length row = length v) p -> ct_rel_to_abs (translation v) (moved v p) = p.
Proof.
  pose proof RT as rt0. unfold ring_num in rt0. intros Hp. cbn. unfold moved. rewrite map_map.
  rewrite <- (map_id p) at 2. apply map_ext_in. intros row Hr. rewrite Forall_forall in Hp. specialize (Hp row Hr). clear Hr.
  unfold map2. revert v Hp. induction row as [|x row IH]; intros [|y v] Hl; cbn in *; auto; try discriminate.
  f_equal; [|apply IH; lia]. rewrite (Rsub_def rt0), <- (Radd_assoc rt0), (Radd_comm rt0 x).
  assert (E : forall a b : N, nadd (nsub a b) b = a).
  { intros a b. rewrite (Rsub_def rt0 a b), <- (Radd_assoc rt0). rewrite (Radd_comm rt0 _ b), (Ropp_def rt0), (Radd_comm rt0), (Radd_0_l rt0). reflexivity. }
  rewrite (Ropp_def rt0). apply (Radd_0_l rt0).
Qed.

(** ** The heap *)
Lemma put_other (l : list (nat * detection N)) : forall h r, ~ In r (map fst l) -> put h l r = h r.
Proof.
  unfold put. induction l as [|[q d] l IH]; intros h r H; cbn in *; auto. rewrite IH by tauto. unfold upd.
  destruct (Nat.eqb_spec r q); auto. subst. tauto.
Qed.
Lemma put_in (l : list (nat * detection N)) : forall h r d, NoDup (map fst l) -> In (r, d) l -> put h l r = d.
Proof.
  unfold put. induction l as [|[q e] l IH]; intros h r d Hd H; [destruct H|]. cbn in *. inversion Hd; subst. destruct H as [H|H].
  - injection H as -> ->. fold (put (upd h r d) l). rewrite put_other by auto. unfold upd. rewrite Nat.eqb_refl. reflexivity.
  - apply IH; auto.
Qed.
Lemma detected_heap (T : coord_transformation N) dets r : forall s : st,
  s_heap (update_dets_ct T dets s) r = Nat.iter (count_occ Nat.eq_dec dets r) (det_update_ct T) (s_heap s r).
Proof.
  induction dets as [|q dets IH]; intros s; [reflexivity|]. cbn [update_dets_ct count_occ]. rewrite IH. unfold mod_det, s_set_heap, upd. cbn [s_heap].
  destruct (Nat.eq_dec q r) as [->|Hne].
  - rewrite Nat.eqb_refl. generalize (count_occ Nat.eq_dec dets r) as n, (s_heap s r) as d. clear. intros n d. induction n as [|n IH]; [reflexivity|]. exact (f_equal _ IH).
  - destruct (Nat.eqb_spec r q); [congruence|reflexivity].
Qed.
Lemma detected_rest (T : coord_transformation N) dets : forall s : st, let t := update_dets_ct T dets s in
  s_store t = s_store s /\ s_tracked t = s_tracked s /\ s_count t = s_count s /\ s_icount t = s_icount s /\ s_gcount t = s_gcount s.
Proof. induction dets as [|q dets IH]; intros s; cbn in *; [auto|]. exact (IH (mod_det q (det_update_ct T) s)). Qed.

(** ** Tracked objects at the end of a call *)
Lemma prim_tracked_new cf (s s' : st) : prim cf s s' -> s_icount s <= s_icount s' /\ forall i, In i (s_tracked s') -> In i (s_tracked s) \/ s_icount s < i.
Proof.
  destruct 1 as [T r s|i r s|i f s H|i j s H H0|i s H H0|l s H H0|r p ct s]; cbn; try (split; [lia|]; intros k Hk; auto; fail).
  - pose proof (cond_add_past_counts i r s) as X. destruct X as (E1 & E2 & E3 & E4). rewrite E1. split; auto. intros j. rewrite E4. auto.
  - unfold create_object. destruct (Z.leb _ _); cbn; (split; [lia|]); intros i Hi; apply in_app_iff in Hi as [Hi|[<-|[]]]; auto.
Qed.
Lemma prims_tracked_new cf (s s' : st) : prims cf s s' -> s_icount s <= s_icount s' /\ forall i, In i (s_tracked s') -> In i (s_tracked s) \/ s_icount s < i.
Proof.
  induction 1 as [|s s' s'' H H' [IH1 IH2]]; auto. apply prim_tracked_new in H as [A B]. split; [lia|]. intros i Hi. destruct (IH2 i Hi) as [X|X]; auto. right. lia.
Qed.
Lemma step_objects_rest T objs : forall s : st, s_tracked (step_objects T objs s) = s_tracked s /\ s_icount (step_objects T objs s) = s_icount s.
Proof. induction objs as [|i objs IH]; intros s; cbn; auto. destruct (IH (mod_obj i (fun o => obj_update_ct T (tracker_step o)) s)) as [-> ->]. auto. Qed.
Lemma call_tracked cf dets p T (s : st) : Forall (known_in s) (s_tracked s) ->
  forall i, In i (s_tracked (fst (call cf dets p T s))) -> In i (survivors cf (detected T dets s)) \/ s_icount s < i.
Proof.
  intros Hv i. unfold call, survivors. destruct (begin_update cf dets T s) as [[al de] s1] eqn:E.
  pose proof (begin_update_prims cf dets T s al de s1 Hv E) as (P & Fa & Fd).
  pose proof (associate_prims cf al de dets p T s1 Fa Fd) as Q. apply prims_tracked_new in Q as [_ Q].
  unfold begin_update in E. fold (detected T dets s) in E. destruct (prune cf (detected T dets s)) as [[tr al'] de'] eqn:Ep. injection E as <- <- <-.
  intros Hi. apply Q in Hi. destruct (step_objects_rest T tr (s_set_tracked tr (detected T dets s))) as [E1 E2]. rewrite E1, E2 in Hi. cbn in Hi.
  rewrite sim_icount_detected in Hi. exact Hi.
Qed.

(** ** One call *)
Variable dim : nat.
Hypothesis dim_pos : 0 < dim.
Variable c : tconf FO.
Hypothesis blind : blind_to_position dim c.

Definition size_ok (conf : oconf N) : Prop := oc_dim_points conf = dim \/ oc_dim_points conf = 0.
Definition pd0 (r : nat) (p1 p2 a : points N) : Prop := True.
Definition pa0 (i : nat) (conf : oconf N) (a1 a2 : option (points N -> points N)) : Prop := size_ok conf /\ a2 = None.
Definition pd1 (v : list N) (dets : list nat) (r : nat) (p1 p2 a : points N) : Prop :=
  In r dets -> p1 = moved v p2 /\ fits v p2 /\ Forall (fun row => length row = dim) a.
Definition pa1 (v : list N) (act : nat -> Prop) (base : nat) (i : nat) (conf : oconf N) (a1 a2 : option (points N -> points N)) : Prop :=
  size_ok conf /\ a2 = None /\ (act i \/ base < i -> a1 = Some (ct_abs_to_rel (translation v))).
Definition all (r : nat) : Prop := True.
Variable h0 : nat -> detection N.
Notation related s1 s2 := (@Simulation.sim N FO all pd0 pa0 True h0 h0 0 s1 s2).

Lemma estimate_fits v (o : tobj) : length v = dim -> size_ok (o_conf o) -> o_abs_to_rel o = None -> fits v (estimate o).
Proof.
  intros Hv Hs Ho. unfold estimate, get_estimate. rewrite Ho. cbn [negb]. destruct Hs as [Hs|Hs].
  - rewrite Hs, <- Hv. apply fits_reshape. lia.
  - unfold dim_z. rewrite Hs. cbn. apply fits_nil.
Qed.
Lemma estimate_pair v (o1 o2 : tobj) : erase o1 = erase o2 -> o_abs_to_rel o2 = None -> o_abs_to_rel o1 = Some (ct_abs_to_rel (translation v)) ->
  get_estimate o1 true = Ret (estimate o2) /\ estimate o1 = moved v (estimate o2).
Proof.
  intros E H2 H1. destruct (core_fields _ _ E) as (E1 & _ & _ & _ & _ & _ & _ & _ & _ & _ & _ & _ & E13).
  unfold estimate, get_estimate, dim_z. rewrite H1, H2, E1, E13. split; reflexivity.
Qed.
Lemma erase_ct (o1 o2 : tobj) : erase o1 = erase o2 -> o_gid o1 = o_gid o2 -> hide_ct o1 = hide_ct o2.
Proof. destruct o1, o2. unfold erase, hide_ct. cbn. intros E ->. injection E; clear E; intros; subst. reflexivity. Qed.
Lemma flatten_moved v (p : points N) : fits v p -> length (flatten (moved v p)) = length (flatten p).
Proof.
  intros Hf. apply fits_rows in Hf. unfold flatten, moved. induction Hf as [|row p Hr Hp IH]; cbn; auto. rewrite !app_length, IH, map2_length; auto.
Qed.

Section Call.
Variables (v : list N) (dets : list nat) (act : nat -> Prop) (base : nat).
Hypothesis Hv : length v = dim.
Hypothesis act_old : forall i, act i -> 1 <= i <= base.
Notation simc s1 s2 := (@Simulation.sim N FO all (pd1 v dets) (pa1 v act base) True h0 h0 base s1 s2).

Lemma rel_same_det r (d1 d2 : detection N) pd : det_rel pd r d1 d2 -> same_det d1 d2.
Proof. intros [A B C D E F]. split; auto. Qed.
Lemma obj_view s1 s2 i : simc s1 s2 -> act i -> obj_seen_from v (view_obj s1 i) (view_obj s2 i).
Proof.
  intros HS Hi. assert (Hk : known_in s1 i) by (pose proof (sm_base _ _ _ _ _ _ _ _ _ HS); apply act_old in Hi; unfold known_in; lia).
  destruct (sm_obj _ _ _ _ _ _ _ _ _ HS i Hk) as [A B (C1 & C2 & C3) D]. specialize (C3 (or_introl Hi)).
  destruct (core_fields _ _ A) as (E1 & _ & _ & _ & _ & E6 & _ & _ & _ & _ & _ & E12 & _).
  destruct (estimate_pair v _ _ A C2 C3) as [X Y]. split; cbn.
  - apply erase_ct; auto.
  - exact Y.
  - apply estimate_fits; auto. rewrite <- E1. exact C1.
  - rewrite <- E6. eapply rel_same_det, (sm_in _ _ _ _ _ _ _ _ _ HS). exact I.
  - rewrite <- E12. generalize (o_past (s_store s1 i)). intros l. induction l; constructor; auto.
    eapply rel_same_det, (sm_in _ _ _ _ _ _ _ _ _ HS). exact I.
Qed.
Lemma cand_view s1 s2 x : simc s1 s2 -> cand_ok (fun r => In r dets) act x -> cand_seen_from v (view_cand s1 x) (view_cand s2 x).
Proof.
  intros HS. destruct x as [r|i]; cbn; intros Hx; [|apply obj_view; auto].
  pose proof (sm_in _ _ _ _ _ _ _ _ _ HS r I) as X. split; [eapply rel_same_det, X|]. destruct (dr_points _ _ _ _ X Hx) as (A & B & _). auto.
Qed.
Lemma label_same s1 s2 x : simc s1 s2 -> cand_ok (fun r => In r dets) act x -> cand_label s1 x = cand_label s2 x.
Proof.
  intros HS Hx. pose proof (cand_view s1 s2 x HS Hx) as X. destruct x as [r|i]; cbn in *.
  - destruct X as [X _]. apply (sd_label _ _ X).
  - pose proof (os_object _ _ _ X) as Y. cbn in Y. exact (f_equal (fun o => oc_label (o_conf o)) Y).
Qed.
Lemma olabel_same s1 s2 i : simc s1 s2 -> act i -> obj_label s1 i = obj_label s2 i.
Proof. intros HS Hi. exact (label_same s1 s2 (CObj i) HS Hi). Qed.

Lemma scalar_same f : scalar_blind dim f -> @same_distances N FO all (pd1 v dets) (pa1 v act base) True h0 h0 (fun r => In r dets) act base (tc_rnd c) (ScalarDistance f).
Proof.
  intros Hf s1 s2 objects cands HS Fo Fc. cbn [get_distances]. rewrite Forall_forall in Fo, Fc. unfold scalar_distances.
  apply map_result_ext. intros x Hx. apply map_result_ext. intros i Hi. specialize (Fo i Hi). specialize (Fc x Hx).
  rewrite (label_same s1 s2 x HS Fc), (olabel_same s1 s2 i HS Fo).
  rewrite (Hf v _ (view_cand s2 x) _ (view_obj s2 i) Hv (cand_view s1 s2 x HS Fc) (obj_view s1 s2 i HS Fo)). reflexivity.
Qed.
Lemma stack_len (l l' : list (list N)) : map (@length N) l = map (@length N) l' ->
  match stack l, stack l' with Ret a, Ret b => a = l /\ b = l' | Raise e, Raise e' => e = e' | _, _ => False end.
Proof.
  intros E. unfold stack. destruct l as [|a l], l' as [|b l']; try discriminate; auto.
  cbn in E. injection E as E0 E. cbn [forallb]. rewrite E0, !Nat.eqb_refl. cbn [andb].
  assert (X : forallb (fun w => Nat.eqb (length w) (length b)) l = forallb (fun w => Nat.eqb (length w) (length b)) l').
  { revert l' E. induction l as [|x l IH]; intros [|y l'] E; try discriminate; auto. cbn in *. injection E as E1 E2. rewrite E1, (IH l' E2). reflexivity. }
  rewrite X. match goal with |- context [if ?b then _ else _] => destruct b end; auto.
Qed.
Lemma vector_same f : vector_blind dim f -> @same_distances N FO all (pd1 v dets) (pa1 v act base) True h0 h0 (fun r => In r dets) act base (tc_rnd c) (VectorizedDistance f).
Proof.
  intros Hf s1 s2 objects cands HS Fo Fc. cbn [get_distances]. rewrite Forall_forall in Fo, Fc.
  assert (L1 : forall x, In x cands -> cand_label s1 x = cand_label s2 x) by (intros x Hx; apply label_same; auto).
  assert (L2 : forall i, In i objects -> obj_label s1 i = obj_label s2 i) by (intros i Hi; apply olabel_same; auto).
  set (arr := fun x => match x with CDet r => d_points (s_heap s2 r) | CObj i => estimate (s_store s2 i) end).
  assert (V1 : forall x, In x cands -> cand_vector s1 x = flatten (moved v (arr x)) /\ cand_vector s2 x = flatten (arr x) /\ fits v (arr x)).
  { intros x Hx. pose proof (cand_view s1 s2 x HS (Fc x Hx)) as X. destruct x as [r|j]; cbn in *.
    - destruct X as (_ & -> & X). auto.
    - destruct X as [_ X1 X2 _ _]. cbn in *. rewrite X1. auto. }
  assert (V2 : forall i, In i objects -> estimate (s_store s1 i) = moved v (estimate (s_store s2 i)) /\ fits v (estimate (s_store s2 i))).
  { intros i Hi. destruct (obj_view s1 s2 i HS (Fo i Hi)) as [_ X1 X2 _ _]. auto. }
  unfold vectorized_distances. destruct objects as [|o0 os]; [reflexivity|]. destruct cands as [|c0 cs]; [reflexivity|].
  set (objects := o0 :: os) in *. set (cands := c0 :: cs) in *. clearbody objects cands.
  rewrite (map_ext_in _ (fun i => label_str (obj_label s2 i)) objects) by (intros i Hi; rewrite L2; auto).
  rewrite (map_ext_in _ (fun x => label_str (cand_label s2 x)) cands) by (intros i Hi; rewrite L1; auto).
  generalize (map (fun _ : cand => map (fun _ : nat => DPInf) objects) cands : matrix N).
  match goal with |- forall M, vectorized_loop _ _ _ _ _ ?l _ = _ => generalize l end.
  intros labels. induction labels as [|l labels IH]; intros M; cbn [vectorized_loop]; [reflexivity|].
  rewrite (map_ext_in _ (fun i => String.eqb (label_str (obj_label s2 i)) l) objects) by (intros i Hi; rewrite L2; auto).
  rewrite (map_ext_in _ (fun x => String.eqb (label_str (cand_label s2 x)) l) cands) by (intros i Hi; rewrite L1; auto).
  rewrite (filter_ext_in _ (fun i => String.eqb (label_str (obj_label s2 i)) l) objects) by (intros i Hi; rewrite L2; auto).
  rewrite (filter_ext_in _ (fun x => String.eqb (label_str (cand_label s2 x)) l) cands) by (intros i Hi; rewrite L1; auto).
  set (fo := filter _ objects). set (fc := filter _ cands).
  assert (Io : forall i, In i fo -> In i objects) by (intros i Hi; apply filter_In in Hi; tauto).
  assert (Ic : forall i, In i fc -> In i cands) by (intros i Hi; apply filter_In in Hi; tauto).
  clearbody fo fc.
  set (qs := map (fun i => estimate (s_store s2 i)) fo). set (ps := map arr fc).
  assert (Q1 : map (fun i => flatten (estimate (s_store s1 i))) fo = map (fun q => flatten (moved v q)) qs).
  { unfold qs. rewrite map_map. apply map_ext_in. intros i Hi. destruct (V2 i (Io i Hi)) as [-> _]. reflexivity. }
  assert (Q2 : map (fun i => flatten (estimate (s_store s2 i))) fo = map flatten qs) by (unfold qs; rewrite map_map; reflexivity).
  assert (P1 : map (cand_vector s1) fc = map (fun q => flatten (moved v q)) ps).
  { unfold ps. rewrite map_map. apply map_ext_in. intros i Hi. apply (V1 i (Ic i Hi)). }
  assert (P2 : map (cand_vector s2) fc = map flatten ps).
  { unfold ps. rewrite map_map. apply map_ext_in. intros i Hi. apply (V1 i (Ic i Hi)). }
  assert (Fq : Forall (fits v) qs). { apply Forall_forall. intros q Hq. apply in_map_iff in Hq as (i & <- & Hi). apply V2; auto. }
  assert (Fp : Forall (fits v) ps). { apply Forall_forall. intros q Hq. apply in_map_iff in Hq as (i & <- & Hi). apply V1; auto. }
  rewrite Q1, Q2, P1, P2.
  assert (Elen : forall l, Forall (fits v) l -> map (@length N) (map (fun q => flatten (moved v q)) l) = map (@length N) (map flatten l)).
  { intros l0 Hl. rewrite !map_map. apply map_ext_in. intros q Hq. rewrite Forall_forall in Hl. apply flatten_moved; auto. }
  pose proof (stack_len _ _ (Elen qs Fq)) as Sq. pose proof (stack_len _ _ (Elen ps Fp)) as Sp.
  destruct (stack (map (fun q => flatten (moved v q)) qs)), (stack (map flatten qs)); try contradiction; [|congruence].
  destruct (stack (map (fun q => flatten (moved v q)) ps)), (stack (map flatten ps)); try contradiction; [|congruence].
  destruct Sq as [-> ->], Sp as [-> ->]. rewrite (Hf v ps qs Hv Fp Fq).
  destruct (f _ _); auto. destruct (_ && _)%bool; auto.
Qed.
End Call.

Lemma shot_related x (s1 s2 : st) : good_shot dim x -> related s1 s2 ->
  alike (sh_offset x) (moving_call c s1 x) (fixed_call c s2 x) /\ related (fst (moving_call c s1 x)) (fst (fixed_call c s2 x)).
Proof.
  intros (Hv & Hnd & Hgood) HR. set (v := sh_offset x) in *. set (dets := map fst (sh_new x)).
  unfold moving_call, fixed_call. fold dets v. rewrite !update_call.
  set (new1 := map (fun rd => (fst rd, filmed v (snd rd))) (sh_new x)).
  set (u1 := meanwhile s1 (put (s_heap s1) new1) (s_gcount s1)). set (u2 := meanwhile s2 (put (s_heap s2) (sh_new x)) (s_gcount s2)).
  set (T := translation v). set (t1 := detected (Some T) dets u1).
  assert (Hdets1 : map fst new1 = dets) by (unfold new1; rewrite map_map; reflexivity).
  destruct HR as [A B C D E F G H I].
  set (pa2 := fun i conf a1 a2 => pa0 i conf a1 a2 /\ i <= s_icount s1).
  assert (HS : @Simulation.sim N FO all (pd1 v dets) pa2 True h0 h0 (s_icount s1) t1 u2).
  { unfold t1. cbn [detected]. destruct (detected_rest T dets u1) as (R1 & R2 & R3 & R4 & R5). split.
    - intros r _. rewrite detected_heap. cbn [u1 u2 meanwhile s_heap]. destruct (in_dec Nat.eq_dec r dets) as [Hr|Hr].
      + assert (Ec : count_occ Nat.eq_dec dets r = 1).
        { apply (count_occ_In Nat.eq_dec) in Hr. pose proof (proj1 (NoDup_count_occ Nat.eq_dec dets) Hnd r). lia. }
        rewrite Ec. cbn [Nat.iter nat_rect]. apply in_map_iff in Hr as ([r' d] & E0 & Hr). cbn in E0. subst r'.
        rewrite (put_in (sh_new x) _ r d Hnd Hr). rewrite (put_in new1 _ r (filmed v d)); [|rewrite Hdets1; exact Hnd|].
        2: { unfold new1. apply in_map_iff. exists (r, d). auto. }
        rewrite Forall_forall in Hgood. destruct (Hgood _ Hr) as [Hu Hrows]. cbn in Hu, Hrows.
        assert (Ea : d_absolute_points d = d_points d) by (rewrite Hu; reflexivity).
        assert (Eg : d_age d = None) by (rewrite Hu; reflexivity).
        assert (Hrows' : Forall (fun row => length row = length v) (d_points d)) by (rewrite Hv; exact Hrows).
        split; cbn [det_update_ct d_set_abs filmed new_detection d_scores d_label d_absolute_points d_age d_data d_points]; auto.
        * rewrite Ea. apply unmoved, Hrows'.
        * intros _. split; [reflexivity|]. split; [apply fits_exact; auto; lia|]. unfold T. rewrite unmoved; auto.
      + rewrite (proj1 (count_occ_not_In Nat.eq_dec dets r) Hr). cbn [Nat.iter nat_rect].
        rewrite put_other by (rewrite Hdets1; exact Hr). rewrite put_other by exact Hr.
        destruct (A r Logic.I) as [X1 X2 X3 X4 X5 X6]. split; auto. intros X. contradiction.
    - intros r Hr. destruct Hr. exact Logic.I.
    - intros i. unfold known_in. rewrite R1, R4. intros Hi. destruct (C i Hi) as [X1 X2 X3 X4]. split; auto. split; auto. exact (proj2 Hi).
    - rewrite R2. exact D.
    - rewrite R2. eapply Forall_impl; [|exact E]. intros i. unfold known_in. rewrite R4. auto.
    - rewrite R3. exact F.
    - rewrite R4. exact G.
    - intros _. rewrite R5. apply H, Logic.I.
    - rewrite R4. cbn. lia. }
  assert (Hic : s_icount t1 = s_icount s1) by (unfold t1; rewrite sim_icount_detected; reflexivity).
  set (act := fun i => In i (survivors c t1)).
  assert (Hact : forall i, act i -> 1 <= i <= s_icount s1).
  { intros i Hi. unfold act, survivors in Hi. destruct (prune c t1) as [[tr al] de] eqn:Ep. apply prune_incl in Ep as (I1 & _).
    pose proof (sm_known _ _ _ _ _ _ _ _ _ HS) as K. rewrite Forall_forall in K. apply I1, K in Hi. unfold known_in in Hi. rewrite Hic in Hi. exact Hi. }
  assert (X : agree all (pd1 v dets) (pa1 v act (s_icount s1)) True h0 h0 (s_icount s1) (call c dets (sh_period x) (Some T) u1) (call c dets (sh_period x) None u2)).
  { pose proof (sim_call all (pd1 v dets) pa2 (pa1 v act (s_icount s1)) True h0 h0 c dets (sh_period x) (Some T) None u1 u2) as X. cbv zeta in X.
    fold t1 in X. rewrite Hic in X. cbn [detected] in X. specialize (X HS). fold act in X. cbn [after_ct rel_of] in X. apply X; clear X.
    - intros r Hr. exact Logic.I.
    - intros i conf a1 a2 Hi [(P1 & P2) P3]. split; auto.
    - intros i conf a1 a2 Hi (P1 & P2 & P3). split; auto.
    - intros i conf a1 a2 Hi [(P1 & P2) P3]. split; auto. split; auto. intros [Q|Q]; [contradiction|lia].
    - intros i conf r w1 w2 HW Hr Hi Hdim _. destruct (dr_points _ _ _ _ (sm_in _ _ _ _ _ _ _ _ _ HW r Logic.I) Hr) as (_ & _ & Hrows).
      split; auto. unfold size_ok. rewrite Hdim. destruct (d_absolute_points (s_heap w1 r)) as [|row rows]; [right; reflexivity|]. inversion Hrows; auto.
    - destruct blind as [Hb _]. destruct (tc_distance c) as [f|f]; [apply scalar_same|apply vector_same]; auto.
    - intros f Hf. apply scalar_same; auto. apply (bp_reid _ _ blind f Hf). }
  destruct X as [X1 X2]. 
  assert (HT : forall i, In i (s_tracked (fst (call c dets (sh_period x) (Some T) u1))) -> act i \/ s_icount s1 < i).
  { intros i Hi. apply call_tracked in Hi; [|exact E]. exact Hi. }
  pose proof (sm_known _ _ _ _ _ _ _ _ _ X2) as K. rewrite Forall_forall in K.
  split.
  - split; auto; try apply X2; auto.
    + intros i Hi. destruct (sm_obj _ _ _ _ _ _ _ _ _ X2 i Hi) as [Y1 Y2 Y3 Y4]. apply erase_ct; auto.
    + intros i Hi. destruct (sm_obj _ _ _ _ _ _ _ _ _ X2 i (K i Hi)) as [Y1 Y2 (Y3 & Y4 & Y5) Y6]. apply (estimate_pair v); auto.
    + intros i Hi. destruct (sm_obj _ _ _ _ _ _ _ _ _ X2 i (K i Hi)) as [Y1 Y2 (Y3 & Y4 & Y5) Y6]. apply (estimate_pair v); auto.
  - eapply sim_params; [exact X2|unfold pd0; auto| |auto| |lia].
    + intros i conf a1 a2 (Y1 & Y2 & _). split; auto.
    + intros r Hr. destruct Hr. exact Logic.I.
Qed.

Lemma recordings_related xs : Forall (good_shot dim) xs -> forall s1 s2, related s1 s2 ->
  forall k x, nth_error xs k = Some x -> exists a b,
  nth_error (recording (moving_call c) s1 xs) k = Some a /\ nth_error (recording (fixed_call c) s2 xs) k = Some b /\ alike (sh_offset x) a b.
Proof.
  induction 1 as [|y xs Hy Hxs IH]; intros s1 s2 HR k x Hx; [destruct k; discriminate|].
  destruct (shot_related y s1 s2 Hy HR) as [A B]. destruct k as [|k]; cbn in *.
  - injection Hx as <-. eauto.
  - apply (IH _ _ B k x Hx).
Qed.
End M.

Theorem moving_camera (N : Num) (FO : filter_ops N) (c : tconf FO) dim h g dummy xs :
  ring_num N -> 0 < dim -> blind_to_position dim c -> Forall (good_shot dim) xs ->
  let s := MkSt h g (fun _ => dummy) [] 0 0 in
  forall k x, nth_error xs k = Some x -> exists a b,
  nth_error (recording (moving_call c) s xs) k = Some a /\ nth_error (recording (fixed_call c) s xs) k = Some b /\ alike (sh_offset x) a b.
Proof.
  intros RT Hd Hb Hx s. apply (recordings_related RT dim Hd c Hb h xs Hx). split; cbn; auto.
  - intros r _. split; reflexivity.
  - intros i [H1 H2]. cbn in H2. lia.
Qed.

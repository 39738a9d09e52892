(** A tracker that is given some of the detections, next to one that is given all.  Used for C84 (detections
    chosen by label) and C104 (detections that are far from the others). *)
From Coq Require Import ZArith Bool Arith String List Lia.
From Verif Require Import Model.Num Model.Base Model.Matching Model.Filter Model.Tracker Spec.MatchingSpec Spec.CallSpec Spec.ExampleVideo Spec.LabelSpec
  Proofs.TrackerFrame Proofs.Identity Proofs.Effect Proofs.LabelSim Proofs.LabelPhase Proofs.LabelVector.
Import ListNotations.

Section Main.
Context {N : Num} (laws : NumLaws N) {FO : filter_ops N}.
Notation st := (st FO).
Variable P : option (label -> bool).
Variable cls : nat -> bool.
Notation sim := (sim (FO:=FO) P cls).
Notation known s := (Forall (fun i => 1 <= i <= s_icount s)).
Variable c : tconf FO.

(** ** New objects *)
Lemma sim_same_heap L (s1 s2 : st) r : sim L s1 s2 -> cls r = true -> s_heap s1 r = s_heap s2 r.
Proof. intros S. apply (sm_heap _ _ _ _ _ S). Qed.

Definition fresh_obj (r : nat) (p : Z) (ct : option (coord_transformation N)) (s : st) : tobj FO :=
  let d := s_heap s r in
  let num_points := List.length (d_absolute_points d) in
  let once := over_threshold (tc_det_thr c) num_points d in
  MkObj (MkOconf (S (s_icount s)) num_points (match d_absolute_points d with [] => 0 | p :: _ => List.length p end) (tc_hit_counter_max c)
      (Z.max (tc_pointwise_max c) p) (tc_delay c) (tc_det_thr c) p (tc_reid_max c) (tc_past_len c) (d_label d))
    p None None None r 0%Z (p <=? tc_delay c)%Z None None once
    (map (fun b : bool => if b then 1%Z else 0%Z) once)
    (if Nat.ltb 0 (tc_past_len c) then [r] else []) (f_create FO (d_absolute_points d))
    (match ct with None => None | Some T => Some (ct_abs_to_rel T) end).
Definition with_fresh (o : tobj FO) (s : st) : st :=
  MkSt (s_heap s) (s_gcount s) (upd (s_store s) (S (s_icount s)) o) (s_tracked s) (s_count s) (S (s_icount s)).
Lemma create_eq r p ct s : create_object c r p ct s =
  (fun s3 => s_set_tracked (s_tracked s3 ++ [S (s_icount s)]) s3) (mod_det r (d_set_age 0%Z)
    (if (p <=? tc_delay c)%Z then with_fresh (fresh_obj r p ct s) s else acquire_ids (S (s_icount s)) (with_fresh (fresh_obj r p ct s) s))).
Proof. reflexivity. Qed.

Lemma chosen_new L (s1 s2 : st) : sim L s1 s2 -> chosen L (S (s_icount s1)) = false.
Proof.
  intros S. destruct (chosen L (Datatypes.S (s_icount s1))) eqn:E; [|reflexivity]. apply chosen_pair in E as [j Hj].
  apply (sm_bound _ _ _ _ _ S) in Hj. lia.
Qed.
Lemma sim_create_frame L r p ct s1 s2 : sim L s1 s2 -> cls r = false -> sim L (create_object c r p ct s1) s2.
Proof.
  intros S Hr. rewrite create_eq. pose proof (chosen_new _ _ _ S) as Hc. set (o := fresh_obj r p ct s1). set (k := Datatypes.S (s_icount s1)) in *.
  assert (Hl : forall Q, P = Some Q -> Q (oc_label (o_conf o)) = false) by (intros Q HQ; cbn; rewrite (sm_lab _ _ _ _ _ S Q r HQ); exact Hr).
  assert (Hp : Forall (other cls) (o_last_det o :: o_past o)) by (unfold o, fresh_obj; cbn [o_past o_last_det]; constructor; [exact Hr|]; destruct (Nat.ltb 0 (tc_past_len c)); auto).
  clearbody o.
  assert (S1 : sim L (with_fresh o s1) s2).
  { pose proof S as [A B C D E F G H I J K]. fold k. assert (X : forall i j, In (i, j) L -> upd (s_store s1) k o i = s_store s1 i).
    { intros i j Hij. unfold upd. destruct (Nat.eqb_spec i k) as [->|]; [|reflexivity]. rewrite (chosen_in _ _ _ Hij) in Hc. discriminate. }
    split; cbn; fold k; auto.
    - intros i j Hij. rewrite (X i j Hij). auto.
    - intros i j Hij. rewrite (X i j Hij). eauto.
    - intros i j Hij. rewrite (X i j Hij). eauto.
    - intros i Hi Hn. unfold upd. destruct (Nat.eqb_spec i k) as [->|]; [exact Hp|]. apply F; [unfold k in *; lia|exact Hn].
    - intros Q i HQ Hi. unfold obj_label. cbn. unfold upd. fold k. destruct (Nat.eqb_spec i k) as [->|]; [rewrite Hc; auto|]. apply G; [exact HQ|]. unfold k in *; lia.
    - intros i j Hij. destruct (I i j Hij). unfold k. split; lia.
    - eapply Forall_impl; [|exact J]. cbn. unfold k. intros; lia. }
  set (x := with_fresh o s1) in *. assert (Ix : s_icount x = k) by reflexivity. clearbody x.
  set (y := if (p <=? tc_delay c)%Z then x else acquire_ids k x).
  assert (S2 : sim L y s2) by (subst y; destruct (Z.leb _ _); [|apply sim_ids1]; exact S1).
  assert (Iy : s_icount y = k) by (subst y; destruct (Z.leb _ _); exact Ix). clearbody y.
  assert (S3 : sim L (mod_det r (d_set_age 0) y) s2) by (apply sim_det_frame; auto).
  cbv beta. rewrite <- (s_set_tracked_same s2). apply sim_tracked; auto.
  - apply Forall_app. split; [exact (sm_known _ _ _ _ _ S3)|]. constructor; [|constructor]. cbn. rewrite Iy. unfold k. lia.
  - unfold relO. rewrite filter_app. cbn [filter]. rewrite Hc, app_nil_r. exact (sm_trk _ _ _ _ _ S3).
Qed.
Lemma chosen_cons i j L k : chosen ((i, j) :: L) k = (Nat.eqb k i || chosen L k)%bool.
Proof. reflexivity. Qed.
Lemma filter_chosen_cons L i j l n : Forall (fun k => 1 <= k <= n) l -> n < i -> filter (chosen ((i, j) :: L)) l = filter (chosen L) l.
Proof. intros F Hn. apply filter_ext_in. intros k Hk. rewrite chosen_cons. rewrite Forall_forall in F. apply F in Hk. destruct (Nat.eqb_spec k i); [lia|reflexivity]. Qed.
Lemma Forall2_pair_mono L L' l1 l2 : incl L L' -> Forall2 (pairL L) l1 l2 -> Forall2 (pairL L') l1 l2.
Proof. intros I. induction 1; constructor; auto. apply I, H. Qed.

Lemma sim_create_both L r p ct s1 s2 : sim L s1 s2 -> cls r = true ->
  sim ((S (s_icount s1), S (s_icount s2)) :: L) (create_object c r p ct s1) (create_object c r p ct s2).
Proof.
  intros S Hr. rewrite !create_eq. pose proof (chosen_new _ _ _ S) as Hc.
  assert (Eo : anonymous (fresh_obj r p ct s1) = anonymous (fresh_obj r p ct s2)).
  { unfold fresh_obj. rewrite <- (sim_same_heap _ _ _ _ S Hr). reflexivity. }
  assert (Hl : forall Q, P = Some Q -> Q (oc_label (o_conf (fresh_obj r p ct s1))) = true) by (intros Q HQ; cbn; rewrite (sm_lab _ _ _ _ _ S Q r HQ); exact Hr).
  assert (Hp : Forall (ownr cls) (o_past (fresh_obj r p ct s1))) by (unfold fresh_obj; cbn [o_past]; destruct (Nat.ltb 0 (tc_past_len c)); auto).
  assert (Hd : cls (o_last_det (fresh_obj r p ct s1)) = true) by exact Hr.
  set (o1 := fresh_obj r p ct s1) in *. set (o2 := fresh_obj r p ct s2) in *. clearbody o1 o2.
  set (k1 := Datatypes.S (s_icount s1)) in *. set (k2 := Datatypes.S (s_icount s2)) in *.
  set (L' := (k1, k2) :: L).
  assert (B1 : forall i j, In (i, j) L -> i <> k1 /\ j <> k2) by (intros i j Hij; apply (sm_bound _ _ _ _ _ S) in Hij; unfold k1, k2; lia).
  assert (S1 : sim L' (with_fresh o1 s1) (with_fresh o2 s2)).
  { pose proof S as [A B C D E F G H I J K]. split; cbn; fold k1; fold k2; auto.
    - intros i j [Hij|Hij]; [injection Hij as <- <-; rewrite !upd_same; exact Eo|]. destruct (B1 i j Hij). rewrite !upd_other by auto. auto.
    - intros i j [Hij|Hij]; [injection Hij as <- <-; rewrite !upd_same; exact Hd|]. destruct (B1 i j Hij). rewrite !upd_other by auto. eauto.
    - intros i j [Hij|Hij]; [injection Hij as <- <-; rewrite !upd_same; exact Hp|]. destruct (B1 i j Hij). rewrite !upd_other by auto. eauto.
    - intros i Hi Hn. change ((Nat.eqb i k1 || chosen L i)%bool = false) in Hn. apply orb_false_iff in Hn as [Hn1 Hn]. apply Nat.eqb_neq in Hn1.
      rewrite upd_other by auto. apply F; [unfold k1 in *; lia|exact Hn].
    - intros Q i HQ Hi. unfold obj_label. cbn. fold k1. change (chosen L' i) with (Nat.eqb i k1 || chosen L i)%bool. unfold upd. destruct (Nat.eqb_spec i k1) as [->|Hne]; [exact (Hl Q HQ)|].
      apply G; [exact HQ|]. unfold k1 in *; lia.
    - intros i j i' j' [Hij|Hij] [Hij'|Hij'].
      + injection Hij as <- <-. injection Hij' as <- <-. tauto.
      + injection Hij as <- <-. destruct (B1 _ _ Hij'). split; intros; subst; contradiction.
      + injection Hij' as <- <-. destruct (B1 _ _ Hij). split; intros; subst; contradiction.
      + apply (H _ _ _ _ Hij Hij').
    - intros i j [Hij|Hij]; [injection Hij as <- <-; unfold k1, k2; lia|]. destruct (I i j Hij). unfold k1, k2. lia.
    - eapply Forall_impl; [|exact J]. cbn. unfold k1. intros; lia.
    - unfold L'. rewrite (filter_chosen_cons L k1 k2 _ (s_icount s1) J) by (unfold k1; lia). eapply Forall2_pair_mono; [|exact K]. intros x Hx; right; exact Hx. }
  set (x1 := with_fresh o1 s1) in *. set (x2 := with_fresh o2 s2) in *. assert (Ix : s_icount x1 = k1) by reflexivity. clearbody x1 x2.
  set (y1 := if (p <=? tc_delay c)%Z then x1 else acquire_ids k1 x1). set (y2 := if (p <=? tc_delay c)%Z then x2 else acquire_ids k2 x2).
  assert (S2 : sim L' y1 y2) by (subst y1 y2; destruct (Z.leb _ _); [|apply sim_ids1, sim_ids2]; exact S1).
  assert (Iy : s_icount y1 = k1) by (subst y1; destruct (Z.leb _ _); exact Ix). clearbody y1 y2.
  assert (S3 : sim L' (mod_det r (d_set_age 0) y1) (mod_det r (d_set_age 0) y2)) by (apply sim_det; auto).
  cbv beta. apply sim_tracked; auto.
  - apply Forall_app. split; [exact (sm_known _ _ _ _ _ S3)|]. constructor; [|constructor]. cbn. rewrite Iy. unfold k1. lia.
  - apply relO_app; [exact (sm_trk _ _ _ _ _ S3)|]. unfold relO, L'. cbn [filter]. rewrite chosen_cons, Nat.eqb_refl. constructor; [left; reflexivity|constructor].
Qed.

Lemma dets_of_create L cands1 p ct : forall cands2 (s1 s1' : st), relC cls L cands1 cands2 -> create_objects c cands1 p ct s1 = (s1', Ret tt) ->
  exists ds, cands1 = map CDet ds /\ cands2 = map CDet (filter cls ds).
Proof.
  induction cands1 as [|[r|j] cands1 IH]; intros cands2 s1 s1' R E; [exists []; inversion R; auto| |discriminate].
  unfold relC in R. cbn in R, E. destruct (cls r) eqn:Hr.
  - inversion R as [|? [r'|j'] ? l2 X Y]; subst; cbn in X; [|contradiction]. destruct X as [<- _]. destruct (IH l2 _ _ Y E) as (ds & -> & ->).
    exists (r :: ds). cbn. rewrite Hr. auto.
  - destruct (IH cands2 _ _ R E) as (ds & -> & ->). exists (r :: ds). cbn. rewrite Hr. auto.
Qed.
Lemma sim_creates p ct ds : forall L (s1 s2 s1' : st), sim L s1 s2 -> create_objects c (map CDet ds) p ct s1 = (s1', Ret tt) ->
  exists L' s2', create_objects c (map CDet (filter cls ds)) p ct s2 = (s2', Ret tt) /\ sim L' s1' s2' /\ incl L L'.
Proof.
  induction ds as [|r ds IH]; intros L s1 s2 s1' S E; cbn in E |- *.
  - injection E as <-. exists L, s2. split; [reflexivity|]. split; [exact S|apply incl_refl].
  - destruct (cls r) eqn:Hr; cbn.
    + destruct (IH ((Datatypes.S (s_icount s1), Datatypes.S (s_icount s2)) :: L) (create_object c r p ct s1) (create_object c r p ct s2) s1') as (L' & s2' & A & B & D);
        [apply sim_create_both; assumption|exact E|]. exists L', s2'. split; [exact A|]. split; [exact B|]. intros x Hx. apply D. right. exact Hx.
    + eapply IH; [|exact E]. apply sim_create_frame; eassumption.
Qed.

(** ** Lists of objects *)
Lemma relO_filter L (p1 p2 : nat -> bool) l1 l2 : (forall i j, In (i, j) L -> p1 i = p2 j) -> relO L l1 l2 -> relO L (filter p1 l1) (filter p2 l2).
Proof.
  intros H R. unfold relO in *. rewrite filter_comm. induction R as [|a b la lb X R IH]; [constructor|]. cbn. rewrite <- (H a b X).
  destruct (p1 a); [constructor; auto|exact IH].
Qed.
Lemma known_filter (s : st) p l : known s l -> known s (filter p l).
Proof. rewrite !Forall_forall. intros H x Hx. apply filter_In in Hx. apply H. tauto. Qed.
Lemma known_incl (s : st) l l' : incl l l' -> known s l' -> known s l.
Proof. rewrite !Forall_forall. auto. Qed.
Lemma field_same L (s1 s2 : st) (f : tobj FO -> bool) : sim L s1 s2 -> (forall o o', anonymous o = anonymous o' -> f o = f o') ->
  forall i j, In (i, j) L -> f (s_store s1 i) = f (s_store s2 j).
Proof. intros S H i j Hij. apply H, (sm_obj _ _ _ _ _ S i j Hij). Qed.
Lemma init_blind (o o' : tobj FO) : anonymous o = anonymous o' -> o_initializing o = o_initializing o'.
Proof. intros E. apply (core_fields _ _ E). Qed.
Lemma hit_blind (o o' : tobj FO) : anonymous o = anonymous o' -> hit_counter_is_positive o = hit_counter_is_positive o'.
Proof. intros E. unfold hit_counter_is_positive. pose proof (core_fields _ _ E) as (-> & _). reflexivity. Qed.
Lemma reid_blind (o o' : tobj FO) : anonymous o = anonymous o' -> reid_hit_counter_is_positive o = reid_hit_counter_is_positive o'.
Proof. intros E. unfold reid_hit_counter_is_positive. pose proof (core_fields _ _ E) as (_ & -> & _). reflexivity. Qed.
Lemma active_blind (o o' : tobj FO) : anonymous o = anonymous o' -> is_active o = is_active o'.
Proof. intros E. unfold is_active. rewrite (init_blind _ _ E), (hit_blind _ _ E). reflexivity. Qed.

(** ** The call *)
Hypothesis Hr : rnd_ok (tc_rnd c).
Hypothesis Hreid : forall L f, tc_reid_distance c = Some f -> isolated P cls L (tc_rnd c) (ScalarDistance f).

(** Whatever the other tracker is, the two groups are apart in this table of distances. *)
Definition separate L (s1 : st) (obs1 : list nat) (cs1 : list cand) : Prop := forall s2 obs2 cs2, sim L s1 s2 ->
  known s1 obs1 -> Forall (cknown s1) cs1 -> relO L obs1 obs2 -> relC cls L cs1 cs2 ->
  isolated_at cls L (tc_rnd c) (tc_distance c) (tc_threshold c) s1 s2 obs1 obs2 cs1 cs2.
(** The same for both tables of a call. *)
Definition call_separate L alive1 dets p (s1 : st) : Prop :=
  separate L s1 (filter (fun i => negb (o_initializing (s_store s1 i))) alive1) (map CDet dets) /\
  forall t1 um mo ui, update_objects_in_place (tc_rnd c) (tc_distance c) (tc_threshold c) (filter (fun i => negb (o_initializing (s_store s1 i))) alive1) (map CDet dets) p s1
      = (t1, Ret (um, mo, ui)) -> separate L t1 (filter (fun i => o_initializing (s_store t1 i)) alive1) um.

Lemma relC_dets L dets : relC cls L (map CDet dets) (map CDet (filter cls dets)).
Proof. unfold relC. induction dets as [|r dets IH]; cbn; [constructor|]. destruct (cls r) eqn:E; cbn; [constructor; cbn; auto|exact IH]. Qed.
Lemma relC_objs L l1 l2 : relO L l1 l2 -> relC cls L (map CObj l1) (map CObj l2).
Proof. unfold relO, relC. rewrite filter_map_comm. change (fun a => csel cls L (CObj a)) with (fun a => chosen L a).
  change (filter (fun a => chosen L a) l1) with (filter (chosen L) l1). generalize (filter (chosen L) l1) as l. induction 1; cbn; constructor; auto. Qed.

Lemma sim_associate L alive1 dead1 alive2 dead2 dets p ct s1 s2 s1' out : sim L s1 s2 -> known s1 alive1 -> known s1 dead1 ->
  relO L alive1 alive2 -> relO L dead1 dead2 -> call_separate L alive1 dets p s1 ->
  associate c alive1 dead1 dets p ct s1 = (s1', Ret out) ->
  exists L' s2' out2, associate c alive2 dead2 (filter cls dets) p ct s2 = (s2', Ret out2) /\ sim L' s1' s2' /\ incl L L' /\ relO L' out out2.
Proof.
  intros S Ka Kd Ra Rd [Sep1 Sep2] E. unfold associate in *.
  destruct (update_objects_in_place (tc_rnd c) (tc_distance c) (tc_threshold c) (filter (fun i => negb (o_initializing (s_store s1 i))) alive1) (map CDet dets) p s1)
    as [t1 [[[um1 mo1] ui1]|e]] eqn:U1; [|discriminate].
  specialize (Sep2 _ _ _ _ eq_refl). pose proof (uip_unmatched_incl _ _ _ _ _ _ _ _ _ _ _ U1) as (_ & Iui & Ium).
  assert (Kc : Forall (cknown s1) (map CDet dets)) by (apply Forall_forall; intros x Hx; apply in_map_iff in Hx as (? & <- & _); exact I).
  assert (Ro : relO L (filter (fun i => negb (o_initializing (s_store s1 i))) alive1) (filter (fun i => negb (o_initializing (s_store s2 i))) alive2)).
  { apply relO_filter; [apply (field_same L s1 s2 (fun o => negb (o_initializing o)) S); intros o o' X; rewrite (init_blind _ _ X); reflexivity|exact Ra]. }
  eapply sim_phase with (s2 := s2) (obs2 := filter (fun i => negb (o_initializing (s_store s2 i))) alive2) (cs2 := map CDet (filter cls dets)) in U1;
    [|exact laws|exact Hr|apply Sep1; [exact S|apply known_filter, Ka|exact Kc|exact Ro|apply relC_dets]|exact S|apply known_filter, Ka|exact Kc|exact Ro|apply relC_dets].
  destruct U1 as (N1 & t2 & um2 & mo2 & ui2 & U2 & S1 & R1 & R2 & R3). rewrite U2.
  assert (Kt : forall l, known s1 l -> known t1 l) by (intros l; rewrite N1; auto).
  assert (Kum : Forall (cknown t1) um1).
  { apply Forall_forall. intros x Hx. apply Ium in Hx. apply in_map_iff in Hx as (? & <- & _). exact I. }
  destruct (update_objects_in_place (tc_rnd c) (tc_distance c) (tc_threshold c) (filter (fun i => o_initializing (s_store t1 i)) alive1) um1 p t1)
    as [v1 [[[vm1 vo1] vi1]|e]] eqn:V1; [|discriminate].
  pose proof (uip_unmatched_incl _ _ _ _ _ _ _ _ _ _ _ V1) as (Ivo & _ & Ivm).
  assert (Ro' : relO L (filter (fun i => o_initializing (s_store t1 i)) alive1) (filter (fun i => o_initializing (s_store t2 i)) alive2)).
  { apply relO_filter; [apply (field_same L t1 t2 (fun o => o_initializing o) S1); apply init_blind|exact Ra]. }
  eapply sim_phase with (s2 := t2) (obs2 := filter (fun i => o_initializing (s_store t2 i)) alive2) (cs2 := um2) in V1;
    [|exact laws|exact Hr|apply Sep2; [exact S1|apply known_filter, Kt, Ka|exact Kum|exact Ro'|exact R1]|exact S1|apply known_filter, Kt, Ka|exact Kum|exact Ro'|exact R1].
  destruct V1 as (N2 & v2 & vm2 & vo2 & vi2 & V2 & S2 & Q1 & Q2 & Q3). rewrite V2.
  assert (Kv : forall l, known s1 l -> known v1 l) by (intros l; rewrite N2, N1; auto).
  destruct (reid_phase c (ui1 ++ dead1) vo1 p v1) as [w1 [u|e]] eqn:W1; [|discriminate].
  assert (W : exists w2, reid_phase c (ui2 ++ dead2) vo2 p v2 = (w2, Ret tt) /\ sim L w1 w2).
  { unfold reid_phase in W1 |- *. destruct (tc_reid_distance c) as [f|] eqn:Ef; [|injection W1 as <- <-; exists v2; auto].
    destruct (update_objects_in_place (tc_rnd c) (ScalarDistance f) (tc_reid_threshold c) (ui1 ++ dead1) (map CObj vo1) p v1) as [x1 [[[a1 b1] d1]|e]] eqn:X1; [|discriminate].
    injection W1 as -> <-.
    assert (Kx : known v1 (ui1 ++ dead1)) by (apply Forall_app; split; apply Kv; [|exact Kd]; eapply known_incl; [exact Iui|]; apply known_filter, Ka).
    assert (Ky : Forall (cknown v1) (map CObj vo1)).
    { apply Forall_forall. intros x Hx. apply in_map_iff in Hx as (i & <- & Hi). cbn.
      assert (X : known v1 vo1) by (apply Kv; eapply known_incl; [exact Ivo|apply known_filter, Ka]). rewrite Forall_forall in X. apply X, Hi. }
    eapply sim_phase with (s2 := v2) (obs2 := ui2 ++ dead2) (cs2 := map CObj vo2) in X1;
      [|exact laws|exact Hr|apply (isolated_there P); [exact (Hreid L f eq_refl)|exact S2|exact Kx|exact Ky|apply relO_app; [exact R3|exact Rd]|apply relC_objs, Q2]
       |exact S2|exact Kx|exact Ky|apply relO_app; [exact R3|exact Rd]|apply relC_objs, Q2].
    destruct X1 as (_ & x2 & a2 & b2 & d2 & X2 & S3 & _). rewrite X2. exists x2. auto. }
  destruct W as (w2 & W2 & S3). rewrite W2.
  destruct (create_objects c vm1 p ct w1) as [z1 [[]|e]] eqn:Z1; [|discriminate]. injection E as <- <-.
  destruct (dets_of_create L vm1 p ct vm2 w1 z1 Q1 Z1) as (ds & -> & ->).
  destruct (sim_creates p ct ds L w1 w2 z1 S3 Z1) as (L' & z2 & Z2 & S4 & In4). rewrite Z2.
  exists L', z2, (get_active_objects z2). split; [reflexivity|]. split; [exact S4|]. split; [exact In4|].
  unfold get_active_objects. apply relO_filter; [apply (field_same L' z1 z2 _ S4), active_blind|exact (sm_trk _ _ _ _ _ S4)].
Qed.

Lemma sim_dets_ct L T dets : forall s1 s2, sim L s1 s2 -> sim L (update_dets_ct T dets s1) (update_dets_ct T (filter cls dets) s2).
Proof.
  induction dets as [|r dets IH]; intros s1 s2 S; cbn; [exact S|]. destruct (cls r) eqn:E; cbn; apply IH.
  - apply sim_det; auto.
  - apply sim_det_frame; auto.
Qed.
Lemma sim_steps L ct l1 : forall l2 s1 s2, relO L l1 l2 -> sim L s1 s2 -> sim L (step_objects ct l1 s1) (step_objects ct l2 s2).
Proof.
  induction l1 as [|i l1 IH]; intros l2 s1 s2 R S.
  - inversion R; subst. exact S.
  - unfold relO in R. cbn [filter] in R. cbn [step_objects]. destruct (chosen L i) eqn:E.
    + inversion R as [|? j ? l2' X Y]; subst. cbn [step_objects]. apply IH; [exact Y|]. apply sim_plain; auto. apply plain_step.
    + apply IH; [exact R|]. apply sim_plain_frame; auto. apply plain_step.
Qed.
Lemma steps_icount ct l : forall s : st, s_icount (step_objects ct l s) = s_icount s.
Proof. induction l as [|i l IH]; intros s; [reflexivity|]. cbn. rewrite IH. reflexivity. Qed.
Lemma sim_prune L s1 s2 t1 a1 d1 t2 a2 d2 : sim L s1 s2 -> prune c s1 = (t1, a1, d1) -> prune c s2 = (t2, a2, d2) ->
  relO L t1 t2 /\ relO L a1 a2 /\ relO L d1 d2 /\ known s1 t1 /\ known s1 a1 /\ known s1 d1.
Proof.
  intros S E1 E2. pose proof (sm_known _ _ _ _ _ S) as K. pose proof (sm_trk _ _ _ _ _ S) as T.
  assert (H1 : forall i j, In (i, j) L -> hit_counter_is_positive (s_store s1 i) = hit_counter_is_positive (s_store s2 j)) by (apply (field_same L s1 s2 _ S), hit_blind).
  assert (H2 : forall i j, In (i, j) L -> reid_hit_counter_is_positive (s_store s1 i) = reid_hit_counter_is_positive (s_store s2 j)) by (apply (field_same L s1 s2 _ S), reid_blind).
  unfold prune in *. destruct (tc_reid_max c); injection E1 as <- <- <-; injection E2 as <- <- <-.
  - repeat match goal with |- _ /\ _ => split end; auto using known_filter.
    + apply relO_filter; auto.
    + apply relO_filter; auto. apply relO_filter; auto.
    + apply relO_filter; [intros i j Hij; f_equal; auto|]. apply relO_filter; auto.
  - repeat match goal with |- _ /\ _ => split end; auto using known_filter.
    + apply relO_filter; auto.
    + apply relO_filter; auto.
    + constructor.
Qed.

Lemma sim_update L dets p ct s1 s2 s1' out : sim L s1 s2 ->
  call_separate L (fst (fst (begin_update c dets ct s1))) dets p (snd (begin_update c dets ct s1)) ->
  update c (Some dets) p ct s1 = (s1', Ret out) ->
  exists L' s2' out2, update c (Some (filter cls dets)) p ct s2 = (s2', Ret out2) /\ sim L' s1' s2' /\ incl L L' /\ relO L' out out2.
Proof.
  intros S Sep E. unfold update in *.
  replace (match ct with Some _ => _ | None => _ end) with
    (let '(alive, dead, s) := begin_update c dets ct s1 in associate c alive dead dets p ct s) in E by (destruct ct; reflexivity).
  replace (match ct with Some _ => _ | None => _ end) with
    (let '(alive, dead, s) := begin_update c (filter cls dets) ct s2 in associate c alive dead (filter cls dets) p ct s) by (destruct ct; reflexivity).
  unfold begin_update in *. cbv zeta in *.
  assert (S1 : sim L (match ct with None => s1 | Some T => update_dets_ct T dets s1 end) (match ct with None => s2 | Some T => update_dets_ct T (filter cls dets) s2 end)).
  { destruct ct; [apply sim_dets_ct|]; exact S. }
  set (x1 := match ct with None => s1 | Some T => _ end) in *. set (x2 := match ct with None => s2 | Some T => _ end) in *. clearbody x1 x2.
  destruct (prune c x1) as [[t1 a1] d1] eqn:P1. destruct (prune c x2) as [[t2 a2] d2] eqn:P2. cbn [fst snd] in Sep.
  destruct (sim_prune L x1 x2 _ _ _ _ _ _ S1 P1 P2) as (Rt & Ra & Rd & Kt & Ka & Kd).
  eapply sim_associate; [|..|exact E]; eauto.
  - apply sim_steps; [exact Rt|]. apply sim_tracked; auto.
  - rewrite steps_icount. exact Ka.
  - rewrite steps_icount. exact Kd.
Qed.

(** ** The video *)
Lemma put_sim L new s1 s2 g1 g2 : (forall Q, P = Some Q -> Forall (fun y => Q (d_label (snd y)) = cls (fst y)) new) -> sim L s1 s2 ->
  sim L (meanwhile s1 (put (s_heap s1) new) g1) (meanwhile s2 (put (s_heap s2) new) g2).
Proof.
  intros F [A B C D E G H I J K M].
  assert (X : forall h1 h2, (forall r, cls r = true -> h1 r = h2 r) -> forall r, cls r = true -> put h1 new r = put h2 new r).
  { clear. induction new as [|[r d] new IH]; intros h1 h2 H1; cbn; [assumption|]. apply IH. intros q Hq. unfold upd. destruct (Nat.eqb_spec q r); auto. }
  assert (Y : forall Q, P = Some Q -> forall h1, (forall r, Q (d_label (h1 r)) = cls r) -> forall r, Q (d_label (put h1 new r)) = cls r).
  { intros Q HQ. specialize (F Q HQ). clear - F. induction F as [|[r d] new Hx F IH]; intros h1 H2; cbn; [assumption|]. cbn in Hx. apply IH.
    intros q. unfold upd. destruct (Nat.eqb_spec q r) as [->|]; auto. }
  split; cbn; auto.
Qed.
Lemma active_incl (s : st) : incl (get_active_objects s) (s_tracked s).
Proof. intros i Hi. apply filter_In in Hi. tauto. Qed.
Lemma update_active dets p ct (s s' : st) out : update c dets p ct s = (s', Ret out) -> out = get_active_objects s'.
Proof.
  unfold update. intros E. assert (X : exists a d ds z, associate c a d ds p ct z = (s', Ret out)).
  { destruct ct, dets; try discriminate; destruct (begin_update _ _ _ _) as [[a d] z]; eauto. }
  destruct X as (a & d & ds & z & X). unfold associate in X.
  destruct (update_objects_in_place _ _ _ _ _ _ _) as [? [[[? ?] ?]|]]; [|discriminate].
  destruct (update_objects_in_place _ _ _ _ _ _ _) as [? [[[? ?] ?]|]]; [|discriminate].
  destruct (reid_phase _ _ _ _ _) as [? [?|]]; [|discriminate]. destruct (create_objects _ _ _ _ _) as [? [?|]]; [|discriminate].
  injection X as <- <-. reflexivity.
Qed.

(** After the calls [x] and [y] the two trackers are related through a part of [L]. *)
Definition related L (x y : CallSpec.frame FO) : Prop :=
  exists L1, incl L1 L /\ sim L1 (f_post x) (f_post y) /\ known (f_post x) (f_out x) /\ relO L1 (f_out x) (f_out y).
Lemma play_related ins : forall L s1 s2 fa, sim L s1 s2 ->
  (forall Q, P = Some Q -> Forall (fun x => Forall (fun y => Q (d_label (snd y)) = cls (fst y)) (in_new x)) ins) ->
  play c s1 ins = Some fa ->
  (forall fr, In fr fa -> forall L s2, sim L (f_pre fr) s2 ->
     call_separate L (fst (fst (begin_update c (f_dets fr) (f_ct fr) (f_pre fr)))) (f_dets fr) (f_period fr) (snd (begin_update c (f_dets fr) (f_ct fr) (f_pre fr)))) ->
  exists L' fb, play c s2 (map (only cls) ins) = Some fb /\ incl L L' /\ one_to_one_rel (pairL L') /\ Forall2 (related L') fa fb.
Proof.
  induction ins as [|x ins IH]; intros L s1 s2 fa S F E Sep.
  - injection E as <-. exists L, []. split; [reflexivity|]. split; [apply incl_refl|]. split; [exact (sm_inj _ _ _ _ _ S)|constructor].
  - assert (F1 : forall Q, P = Some Q -> Forall (fun y => Q (d_label (snd y)) = cls (fst y)) (in_new x)) by (intros Q HQ; specialize (F Q HQ); inversion F; auto).
    assert (F2 : forall Q, P = Some Q -> Forall (fun x => Forall (fun y => Q (d_label (snd y)) = cls (fst y)) (in_new x)) ins) by (intros Q HQ; specialize (F Q HQ); inversion F; auto).
    cbn in E. destruct (update c _ _ _ _) as [s1' [out|e]] eqn:U; [|discriminate].
    destruct (play c s1' ins) as [fs|] eqn:Ep; [|discriminate]. injection E as <-.
    pose proof (update_active _ _ _ _ _ _ U) as Eo. pose proof (put_sim L (in_new x) s1 s2 (s_gcount s1) (s_gcount s2) F1 S) as S0.
    pose proof (Sep _ (or_introl eq_refl) L _ S0) as Sep0. cbn [f_dets f_ct f_pre f_period] in Sep0.
    destruct (sim_update L _ _ _ _ _ _ _ S0 Sep0 U) as (L1 & s2' & out2 & U2 & S' & I1 & R).
    destruct (IH L1 s1' s2' fs S' F2 Ep (fun fr Hf => Sep fr (or_intror Hf))) as (L' & fb & Eb & I2 & Oo & Fb).
    cbn [map play only in_new in_dets in_period in_ct]. rewrite U2, Eb. eexists L', _. split; [reflexivity|].
    split; [eapply incl_tran; eassumption|]. split; [exact Oo|]. constructor; [|exact Fb].
    exists L1. cbn. split; [exact I2|]. split; [exact S'|]. split; [|exact R]. rewrite Eo. eapply known_incl; [apply active_incl|exact (sm_known _ _ _ _ _ S')].
Qed.
End Main.

(** ** Labels *)
Section Labels.
Context {N : Num} (laws : NumLaws N) {FO : filter_ops N}.

Lemma out_part (P : label -> bool) cls L (R : nat -> nat -> Prop) (s1 s2 : st FO) l1 l2 : sim (Some P) cls L s1 s2 -> (forall i j, In (i, j) L -> R i j) ->
  Forall (fun i => 1 <= i <= s_icount s1) l1 -> relO L l1 l2 -> same_part P R s1 s2 l1 l2.
Proof.
  intros S HR K RO. unfold same_part. rewrite (filter_ext_in _ (chosen L)).
  - unfold relO in RO. clear K. induction RO; constructor; auto. split; [apply HR; exact H|apply (pair_view (Some P) cls L); [exact S|exact H]].
  - intros i Hi. rewrite Forall_forall in K. apply (sm_olab _ _ _ _ _ S P i eq_refl), K, Hi.
Qed.
Theorem labels_isolated (c : tconf FO) (P : label -> bool) lab h g g' dummy dummy' ins fa :
  rnd_ok (tc_rnd c) -> separates P (tc_distance c) ->
  (forall f, tc_reid_distance c = Some f -> number_blind f) ->
  labelled lab h ins ->
  play c (new_tracker h g dummy) ins = Some fa ->
  exists R fb, play c (new_tracker h g' dummy') (map (only (fun r => P (lab r))) ins) = Some fb /\
    one_to_one_rel R /\ Forall2 (same_parts P R) fa fb.
Proof.
  intros Hr Hd Hf [Hl Hi] E. set (cls := fun r => P (lab r)).
  assert (Iso : forall L, isolated (Some P) cls L (tc_rnd c) (tc_distance c)).
  { intros L. destruct (tc_distance c) as [f|f]; [apply (scalar_isolated _ _ _ P); [reflexivity|]|apply vector_isolated]; exact Hd. }
  destruct (play_related laws (Some P) cls c Hr) with (L := @nil (nat * nat)) (s1 := new_tracker h g dummy) (s2 := new_tracker h g' dummy') (ins := ins) (fa := fa)
    as (L' & fb & A & _ & B & D); auto.
  - intros L f' Ef. apply (scalar_isolated _ _ _ P); [reflexivity|]. apply Hf, Ef.
  - split; cbn; auto; try (intros; lia); try (intros; contradiction).
    intros Q r HQ. injection HQ as <-. rewrite Hl. reflexivity.
  - intros Q HQ. injection HQ as <-. eapply Forall_impl; [|exact Hi]. intros x F. eapply Forall_impl; [|exact F]. intros y Hy. cbn. rewrite Hy. reflexivity.
  - intros fr _ L s2 _. split; [|intros t1 um mo ui _]; intros s2' obs2 cs2 S' K1 K2 R1 R2; apply (isolated_there (Some P)); auto.
  - exists (pairL L'), fb. split; [exact A|]. split; [exact B|]. clear - D. induction D as [|x y fa fb (L1 & I1 & S1 & K1 & R1) D IH]; constructor; auto.
    split; apply (out_part P cls L1); auto; try (intros i j H; apply I1, H); [exact (sm_known _ _ _ _ _ S1)|exact (sm_trk _ _ _ _ _ S1)].
Qed.
End Labels.

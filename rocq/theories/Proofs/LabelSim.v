(** Two trackers with different object numbers, one of which sees only some of the detections.  Used for C84 and C104. *)
From Coq Require Import ZArith Bool Arith String List Lia.
From Verif Require Import Model.Num Model.Base Model.Matching Model.Filter Model.Tracker Spec.CallSpec Spec.ExampleVideo Spec.LabelSpec.
Import ListNotations.

Section Sim.
Context {N : Num} {FO : filter_ops N}.
Notation st := (st FO).
Notation tobj := (tobj FO).
Notation det := (detection N).

(** If labels decide which detections the second tracker sees: which labels. *)
Variable P : option (label -> bool).
Variable cls : nat -> bool.

Definition chosen (L : list (nat * nat)) (i : nat) : bool := inb i (map fst L).
Definition pairL (L : list (nat * nat)) (i j : nat) : Prop := In (i, j) L.
Definition ownr (r : nat) : Prop := cls r = true.
Definition other (r : nat) : Prop := cls r = false.

Record sim (L : list (nat * nat)) (s1 s2 : st) : Prop := MkSim {
  sm_heap : forall r, cls r = true -> s_heap s1 r = s_heap s2 r;
  sm_lab : forall Q r, P = Some Q -> Q (d_label (s_heap s1 r)) = cls r;
  sm_obj : forall i j, In (i, j) L -> anonymous (s_store s1 i) = anonymous (s_store s2 j);
  sm_last : forall i j, In (i, j) L -> cls (o_last_det (s_store s1 i)) = true;
  sm_past : forall i j, In (i, j) L -> Forall ownr (o_past (s_store s1 i));
  sm_rest : forall i, 1 <= i <= s_icount s1 -> chosen L i = false -> Forall other (o_last_det (s_store s1 i) :: o_past (s_store s1 i));
  sm_olab : forall Q i, P = Some Q -> 1 <= i <= s_icount s1 -> Q (obj_label s1 i) = chosen L i;
  sm_inj : forall i j i' j', In (i, j) L -> In (i', j') L -> (i = i' <-> j = j');
  sm_bound : forall i j, In (i, j) L -> 1 <= i <= s_icount s1 /\ 1 <= j <= s_icount s2;
  sm_known : Forall (fun i => 1 <= i <= s_icount s1) (s_tracked s1);
  sm_trk : Forall2 (pairL L) (filter (chosen L) (s_tracked s1)) (s_tracked s2)
}.

Lemma chosen_in L i j : In (i, j) L -> chosen L i = true.
Proof. intros H. apply inb_In. apply (in_map fst) in H. exact H. Qed.
Lemma chosen_pair L i : chosen L i = true -> exists j, In (i, j) L.
Proof. intros H. apply inb_In in H. apply in_map_iff in H as ((a & j) & E & H). cbn in E. subst. eauto. Qed.

Ltac core E := match type of E with anonymous ?a = anonymous ?b =>
  destruct a as [[? ? ? ? ? ? ? ? ? ? ?] ? ? ? ? ? ? ? ? ? ? ? ? ? ?], b as [[? ? ? ? ? ? ? ? ? ? ?] ? ? ? ? ? ? ? ? ? ? ? ? ? ?];
  unfold anonymous, anonymous_conf in E; cbn in E; injection E; clear E; intros; subst end.

Lemma core_fields (o1 o2 : tobj) : anonymous o1 = anonymous o2 ->
  o_hit o1 = o_hit o2 /\ o_reid o1 = o_reid o2 /\ o_last_distance o1 = o_last_distance o2 /\
  o_last_det o1 = o_last_det o2 /\ o_age o1 = o_age o2 /\
  o_initializing o1 = o_initializing o2 /\ o_once o1 = o_once o2 /\ o_point_hits o1 = o_point_hits o2 /\
  o_past o1 = o_past o2 /\ o_filter o1 = o_filter o2 /\ o_abs_to_rel o1 = o_abs_to_rel o2.
Proof. intros E. core E. cbn. repeat split. Qed.
Lemma core_conf (o1 o2 : tobj) : anonymous o1 = anonymous o2 ->
  oc_num_points (o_conf o1) = oc_num_points (o_conf o2) /\ oc_dim_points (o_conf o1) = oc_dim_points (o_conf o2) /\
  oc_hit_counter_max (o_conf o1) = oc_hit_counter_max (o_conf o2) /\ oc_pointwise_max (o_conf o1) = oc_pointwise_max (o_conf o2) /\
  oc_delay (o_conf o1) = oc_delay (o_conf o2) /\ oc_det_thr (o_conf o1) = oc_det_thr (o_conf o2) /\
  oc_initial_period (o_conf o1) = oc_initial_period (o_conf o2) /\ oc_reid_max (o_conf o1) = oc_reid_max (o_conf o2) /\
  oc_past_len (o_conf o1) = oc_past_len (o_conf o2) /\ oc_label (o_conf o1) = oc_label (o_conf o2).
Proof. intros E. core E. cbn. repeat split. Qed.

(** ** Primitive changes *)
Section L.
Variable L : list (nat * nat).

Lemma sim_obj i j f1 f2 s1 s2 : sim L s1 s2 -> In (i, j) L ->
  anonymous (f1 (s_store s1 i)) = anonymous (f2 (s_store s2 j)) ->
  cls (o_last_det (f1 (s_store s1 i))) = true -> Forall ownr (o_past (f1 (s_store s1 i))) ->
  oc_label (o_conf (f1 (s_store s1 i))) = oc_label (o_conf (s_store s1 i)) ->
  sim L (mod_obj i f1 s1) (mod_obj j f2 s2).
Proof.
  intros [A B C D E F G H I J K] Hij Eo El Ep Ec. split; cbn; auto.
  - intros i' j' H'. unfold upd. destruct (Nat.eqb_spec i' i) as [->|Hi], (Nat.eqb_spec j' j) as [->|Hj]; auto.
    + destruct Hj. symmetry. apply (H i j i j'); auto.
    + destruct Hi. symmetry. apply (H i j i' j); auto.
  - intros i' j' H'. unfold upd. destruct (Nat.eqb_spec i' i) as [->|Hi]; eauto.
  - intros i' j' H'. unfold upd. destruct (Nat.eqb_spec i' i) as [->|Hi]; eauto.
  - intros i' K1 K2. unfold upd. destruct (Nat.eqb_spec i' i) as [->|Hi]; eauto. rewrite (chosen_in _ _ _ Hij) in K2. discriminate.
  - intros Q i' HQ K1. unfold obj_label. cbn. unfold upd. destruct (Nat.eqb_spec i' i) as [->|Hi]; [|apply G; auto]. rewrite Ec. apply (G Q i HQ K1).
Qed.
Lemma sim_frame i f s1 s2 : sim L s1 s2 -> chosen L i = false ->
  (Forall other (o_last_det (s_store s1 i) :: o_past (s_store s1 i)) -> Forall other (o_last_det (f (s_store s1 i)) :: o_past (f (s_store s1 i)))) ->
  oc_label (o_conf (f (s_store s1 i))) = oc_label (o_conf (s_store s1 i)) ->
  sim L (mod_obj i f s1) s2.
Proof.
  intros [A B C D E F G H I J K] Hi Ep Ec.
  assert (X : forall i' j', In (i', j') L -> upd (s_store s1) i (f (s_store s1 i)) i' = s_store s1 i').
  { intros i' j' H'. unfold upd. destruct (Nat.eqb_spec i' i) as [->|Hne]; auto. rewrite (chosen_in _ _ _ H') in Hi. discriminate. }
  split; cbn; auto.
  - intros i' j' H'. rewrite (X i' j' H'). auto.
  - intros i' j' H'. rewrite (X i' j' H'). eauto.
  - intros i' j' H'. rewrite (X i' j' H'). eauto.
  - intros i' K1 K2. unfold upd. destruct (Nat.eqb_spec i' i) as [->|Hne]; auto.
  - intros Q i' HQ K1. unfold obj_label. cbn. unfold upd. destruct (Nat.eqb_spec i' i) as [->|Hne]; [|apply G; auto]. rewrite Ec. apply (G Q i HQ K1).
Qed.
Lemma sim_hidden1 i f s1 s2 : sim L s1 s2 -> (forall o, anonymous (f o) = anonymous o) -> sim L (mod_obj i f s1) s2.
Proof.
  intros [A B C D E F G H I J K] Hf. pose proof (Hf (s_store s1 i)) as E0.
  pose proof (core_fields _ _ E0) as (_ & _ & _ & E1 & _ & _ & _ & _ & E2 & _). pose proof (core_conf _ _ E0) as (_ & _ & _ & _ & _ & _ & _ & _ & _ & E3).
  split; cbn; auto.
  - intros i' j' H'. unfold upd. destruct (Nat.eqb_spec i' i) as [->|Hne]; auto. rewrite E0. auto.
  - intros i' j' H'. unfold upd. destruct (Nat.eqb_spec i' i) as [->|Hne]; eauto; rewrite E1; eauto.
  - intros i' j' H'. unfold upd. destruct (Nat.eqb_spec i' i) as [->|Hne]; eauto. rewrite E2. eauto.
  - intros i' K1 K2. unfold upd. destruct (Nat.eqb_spec i' i) as [->|Hne]; auto. rewrite E1, E2. auto.
  - intros Q i' HQ K1. unfold obj_label. cbn. unfold upd. destruct (Nat.eqb_spec i' i) as [->|Hne]; [|apply G; auto]. rewrite E3. apply (G Q i HQ K1).
Qed.
Lemma sim_hidden2 i f s1 s2 : sim L s1 s2 -> (forall o, anonymous (f o) = anonymous o) -> sim L s1 (mod_obj i f s2).
Proof.
  intros [A B C D E F G H I J K] Hf. split; cbn; auto.
  intros i' j' H'. unfold upd. destruct (Nat.eqb_spec j' i) as [->|Hne]; auto. rewrite Hf. auto.
Qed.
Lemma sim_det r f s1 s2 : sim L s1 s2 -> (forall d, d_label (f d) = d_label d) -> sim L (mod_det r f s1) (mod_det r f s2).
Proof.
  intros [A B C D E F G H I J K] Hf. split; cbn; auto.
  - intros q Hq. unfold upd. destruct (Nat.eqb_spec q r) as [->|Hne]; auto. rewrite A; auto.
  - intros Q q HQ. unfold upd. destruct (Nat.eqb_spec q r) as [->|Hne]; auto. rewrite Hf. auto.
Qed.
Lemma sim_det_frame r f s1 s2 : sim L s1 s2 -> cls r = false -> (forall d, d_label (f d) = d_label d) -> sim L (mod_det r f s1) s2.
Proof.
  intros [A B C D E F G H I J K] Hr Hf. split; cbn; auto.
  - intros q Hq. unfold upd. destruct (Nat.eqb_spec q r) as [->|Hne]; auto. congruence.
  - intros Q q HQ. unfold upd. destruct (Nat.eqb_spec q r) as [->|Hne]; auto. rewrite Hf. auto.
Qed.
Lemma sim_counts1 s1 s2 g n : sim L s1 s2 -> sim L (MkSt (s_heap s1) g (s_store s1) (s_tracked s1) n (s_icount s1)) s2.
Proof. intros [A B C D E F G H I J K]. split; cbn; auto. Qed.
Lemma sim_counts2 s1 s2 g n : sim L s1 s2 -> sim L s1 (MkSt (s_heap s2) g (s_store s2) (s_tracked s2) n (s_icount s2)).
Proof. intros [A B C D E F G H I J K]. split; cbn; auto. Qed.

(** The same change on both sides, not involving references and numbers. *)
Definition plain (f : tobj -> tobj) : Prop := forall o o', anonymous o = anonymous o' ->
  anonymous (f o) = anonymous (f o') /\ o_last_det (f o) = o_last_det o /\ o_past (f o) = o_past o /\ oc_label (o_conf (f o)) = oc_label (o_conf o).
Lemma sim_plain i j f s1 s2 : plain f -> sim L s1 s2 -> In (i, j) L -> sim L (mod_obj i f s1) (mod_obj j f s2).
Proof.
  intros Pf S Hij. pose proof (Pf _ _ (sm_obj _ _ _ S i j Hij)) as (E1 & E2 & E3 & E4).
  apply sim_obj; auto; [rewrite E2; eapply sm_last; eauto|rewrite E3; eapply sm_past; eauto].
Qed.
Lemma sim_plain_frame i f s1 s2 : plain f -> sim L s1 s2 -> chosen L i = false -> sim L (mod_obj i f s1) s2.
Proof. intros Pf S Hi. destruct (Pf (s_store s1 i) _ eq_refl) as (_ & E2 & E3 & E4). apply sim_frame; auto. rewrite E2, E3. auto. Qed.
Lemma plain_hit f : (forall o o', anonymous o = anonymous o' -> f o = f o') -> plain (fun o : tobj => set_hit (f o) o).
Proof. intros F o o' E. rewrite (F o o' E). core E. repeat split. Qed.
Lemma plain_init b : plain (set_initializing b).
Proof. intros o o' E. core E. repeat split. Qed.
Lemma plain_ph f : (forall o o', anonymous o = anonymous o' -> f o = f o') -> plain (fun o : tobj => set_point_hits (f o) o).
Proof. intros F o o' E. rewrite (F o o' E). core E. repeat split. Qed.
Lemma plain_filter f : (forall o o', anonymous o = anonymous o' -> f o = f o') -> plain (fun o : tobj => set_filter (f o) o).
Proof. intros F o o' E. rewrite (F o o' E). core E. repeat split. Qed.
Lemma plain_once f : (forall o o', anonymous o = anonymous o' -> f o = f o') -> plain (fun o : tobj => set_once (f o) o).
Proof. intros F o o' E. rewrite (F o o' E). core E. repeat split. Qed.
Lemma plain_dist v : plain (set_last_distance v).
Proof. intros o o' E. core E. repeat split. Qed.
Lemma plain_step c : plain (fun o => obj_update_ct c (@tracker_step N FO o)).
Proof. intros o o' E. core E. destruct c; cbn; repeat split. Qed.

Lemma acquire_eq i (s : st) : exists g n, acquire_ids i s = mod_obj i (set_ids (Some (S (s_count s))) (Some (S (s_gcount s)))) (MkSt (s_heap s) g (s_store s) (s_tracked s) n (s_icount s)).
Proof. eexists _, _. reflexivity. Qed.
Lemma hide_ids a b (o : tobj) : anonymous (set_ids a b o) = anonymous o.
Proof. reflexivity. Qed.
Lemma sim_ids1 i s1 s2 : sim L s1 s2 -> sim L (acquire_ids i s1) s2.
Proof. intros S. destruct (acquire_eq i s1) as (g & n & ->). apply sim_hidden1; [apply sim_counts1, S|intros; apply hide_ids]. Qed.
Lemma sim_ids2 i s1 s2 : sim L s1 s2 -> sim L s1 (acquire_ids i s2).
Proof. intros S. destruct (acquire_eq i s2) as (g & n & ->). apply sim_hidden2; [apply sim_counts2, S|intros; apply hide_ids]. Qed.
Lemma sim_min1 thr M objects : forall k s1 s2, sim L s1 s2 -> sim L (set_min_distances thr M k objects s1) s2.
Proof. induction objects as [|i l IH]; intros k s1 s2 S; cbn; auto. apply IH, sim_hidden1; auto. Qed.
Lemma sim_min2 thr M objects : forall k s1 s2, sim L s1 s2 -> sim L s1 (set_min_distances thr M k objects s2).
Proof. induction objects as [|i l IH]; intros k s1 s2 S; cbn; auto. apply IH, sim_hidden2; auto. Qed.

(** ** Methods of objects *)
Definition agree {A} (x1 x2 : st * result A) : Prop := snd x1 = snd x2 /\ sim L (fst x1) (fst x2).
Lemma agree_ret {A} (a : A) s1 s2 : sim L s1 s2 -> agree (s1, Ret a) (s2, Ret a).
Proof. intros S. split; auto. Qed.
Lemma agree_raise {A} e s1 s2 : sim L s1 s2 -> agree (A:=A) (s1, Raise e) (s2, Raise e).
Proof. intros S. split; auto. Qed.

Lemma sim_cond_add i j r s1 s2 : In (i, j) L -> cls r = true -> sim L s1 s2 -> agree (cond_add_past i r s1) (cond_add_past j r s2).
Proof.
  intros Hij Hr S. unfold cond_add_past. pose proof (sm_obj _ _ _ S i j Hij) as E.
  pose proof (core_fields _ _ E) as (_ & _ & _ & _ & Ea & _ & _ & _ & Ep & _). pose proof (core_conf _ _ E) as (_ & _ & _ & _ & _ & _ & _ & _ & El & _).
  pose proof (sm_past _ _ _ S i j Hij) as Fp. pose proof (sm_last _ _ _ S i j Hij) as Fl.
  rewrite <- El, <- Ep, <- Ea. destruct (Nat.eqb _ 0); [apply agree_ret, S|].
  assert (Sd : sim L (mod_det r (d_set_age (o_age (s_store s1 i))) s1) (mod_det r (d_set_age (o_age (s_store s1 i))) s2)) by (apply sim_det; auto).
  destruct (Nat.ltb _ _).
  - apply agree_ret. apply sim_obj; auto; cbn.
    + clear - E. core E. reflexivity.
    + apply Forall_app. split; auto.
  - destruct (o_past (s_store s1 i)) as [|first rest] eqn:Eq; [apply agree_raise, S|]. inversion Fp; subst.
    rewrite <- (sm_heap _ _ _ S first) by assumption. destruct (d_age _); [|apply agree_raise, S]. destruct (Z.leb _ _); [|apply agree_ret, S].
    apply agree_ret. apply sim_obj; auto; cbn.
    + clear - E. core E. reflexivity.
    + apply Forall_app. split; auto.
Qed.
Lemma frame_cond_add i r s1 s2 : chosen L i = false -> cls r = false -> sim L s1 s2 -> sim L (fst (cond_add_past i r s1)) s2.
Proof.
  intros Hi Hr S. unfold cond_add_past. destruct (Nat.eqb _ 0); [exact S|].
  assert (Sd : sim L (mod_det r (d_set_age (o_age (s_store s1 i))) s1) s2) by (apply sim_det_frame; auto).
  destruct (Nat.ltb _ _); cbn [fst].
  - apply sim_frame; auto. cbn. intros F. inversion F; subst. constructor; [assumption|]. apply Forall_app. auto.
  - destruct (o_past (s_store s1 i)) as [|first rest] eqn:Eq; [exact S|]. destruct (d_age _); [|exact S]. destruct (Z.leb _ _); [|exact S].
    cbn [fst]. apply sim_frame; auto. cbn. rewrite Eq. intros F. inversion F as [|? ? F0 F1]; subst. inversion F1; subst. constructor; [assumption|]. apply Forall_app. auto.
Qed.

Lemma sim_hit i j r p s1 s2 : In (i, j) L -> cls r = true -> sim L s1 s2 -> agree (hit i r p s1) (hit j r p s2).
Proof.
  intros Hij Ho S. pose proof (sim_cond_add i j r s1 s2 Hij Ho S) as [E S']. unfold hit.
  destruct (cond_add_past i r s1) as [t1 [u1|e1]], (cond_add_past j r s2) as [t2 [u2|e2]]; cbn [fst snd] in E, S'; try discriminate.
  2: { injection E as ->. apply agree_raise, S'. }
  clear E S s1 s2 u1 u2. rename t1 into s1, t2 into s2, S' into S.
  assert (S1 : sim L (mod_obj i (set_last_det r) s1) (mod_obj j (set_last_det r) s2)).
  { apply sim_obj; auto; cbn; [|exact (sm_past _ _ _ S i j Hij)]. pose proof (sm_obj _ _ _ S i j Hij) as E. core E. reflexivity. }
  set (a1 := mod_obj i (set_last_det r) s1) in *. set (a2 := mod_obj j (set_last_det r) s2) in *. clearbody a1 a2. clear S s1 s2.
  assert (S2 : sim L (mod_obj i (fun o => set_hit (Z.min (o_hit o + 2 * p) (oc_hit_counter_max (o_conf o))) o) a1)
                   (mod_obj j (fun o => set_hit (Z.min (o_hit o + 2 * p) (oc_hit_counter_max (o_conf o))) o) a2)).
  { apply sim_plain; auto. apply plain_hit. intros o o' E. core E. reflexivity. }
  set (b1 := mod_obj i _ a1) in *. set (b2 := mod_obj j _ a2) in *. clearbody b1 b2. clear S1 a1 a2.
  pose proof (core_fields _ _ (sm_obj _ _ _ S2 i j Hij)) as (E2 & _ & _ & _ & _ & E8 & _).
  pose proof (core_conf _ _ (sm_obj _ _ _ S2 i j Hij)) as (_ & _ & _ & _ & E1 & _).
  rewrite <- E1, <- E2, <- E8.
  set (cnd := (o_initializing (s_store b1 i) && (oc_delay (o_conf (s_store b1 i)) <? o_hit (s_store b1 i))%Z)%bool).
  assert (S3 : sim L (if cnd then acquire_ids i (mod_obj i (set_initializing false) b1) else b1)
                   (if cnd then acquire_ids j (mod_obj j (set_initializing false) b2) else b2)).
  { destruct cnd; auto. apply sim_ids1, sim_ids2. apply sim_plain; auto. apply plain_init. }
  set (c1 := if cnd then acquire_ids i (mod_obj i (set_initializing false) b1) else b1) in *.
  set (c2 := if cnd then acquire_ids j (mod_obj j (set_initializing false) b2) else b2) in *.
  clearbody c1 c2. clear S2 E1 E2 E8 cnd b1 b2.
  pose proof (sm_obj _ _ _ S3 i j Hij) as Ec.
  pose proof (core_fields _ _ Ec) as (_ & _ & _ & _ & _ & _ & E10 & E11 & _).
  pose proof (core_conf _ _ Ec) as (K1 & K2 & _ & _ & _ & K6 & _).
  assert (Ed : dim_z (s_store c1 i) = dim_z (s_store c2 j)) by (unfold dim_z; rewrite K1, K2; reflexivity).
  rewrite <- K1, <- K2, <- K6, <- E10, <- E11, <- Ed, <- (sm_heap _ _ _ S3 r Ho).
  set (mask := over_threshold _ _ (s_heap c1 r)).
  set (counted := match d_scores (s_heap c1 r) with Some _ => mask | None => _ end).
  set (z := flatten (d_absolute_points (s_heap c1 r))).
  destruct (negb (Nat.eqb (List.length counted) _)); [apply agree_raise, S3|].
  assert (S4 : sim L (mod_obj i (fun o => set_point_hits (point_hits_update p (oc_pointwise_max (o_conf o)) counted (o_point_hits o)) o) c1)
                   (mod_obj j (fun o => set_point_hits (point_hits_update p (oc_pointwise_max (o_conf o)) counted (o_point_hits o)) o) c2)).
  { apply sim_plain; auto. apply plain_ph. intros o o' E. core E. reflexivity. }
  set (x1 := mod_obj i _ c1) in *. set (x2 := mod_obj j _ c2) in *. clearbody x1 x2.
  destruct (_ || _)%bool; [apply agree_raise, S4|].
  set (diagonal := repeat_each _ _).
  assert (S5 : sim L (mod_obj i (fun o => set_filter (f_update FO (o_filter o) z diagonal) o) x1)
                   (mod_obj j (fun o => set_filter (f_update FO (o_filter o) z diagonal) o) x2)).
  { apply sim_plain; auto. apply plain_filter. intros o o' E. core E. reflexivity. }
  set (y1 := mod_obj i _ x1) in *. set (y2 := mod_obj j _ x2) in *. clearbody y1 y2.
  destruct (negb (Nat.eqb (List.length (o_once _)) _)); [apply agree_raise, S5|].
  apply agree_ret. apply sim_plain; auto; [apply plain_once; intros o o' E; core E; reflexivity|].
  apply sim_plain; auto. apply plain_filter; intros o o' E; core E; reflexivity.
Qed.
Lemma frame_hit i r p s1 s2 : chosen L i = false -> cls r = false -> sim L s1 s2 -> sim L (fst (hit i r p s1)) s2.
Proof.
  intros Hi Ho S. pose proof (frame_cond_add i r s1 s2 Hi Ho S) as S'. unfold hit.
  destruct (cond_add_past i r s1) as [t1 [u1|e1]]; cbn [fst] in S'; [|exact S'].
  clear S s1 u1. rename t1 into s1, S' into S.
  assert (S1 : sim L (mod_obj i (set_last_det r) s1) s2) by (apply sim_frame; auto; cbn; intros F; inversion F; subst; constructor; assumption).
  set (a1 := mod_obj i (set_last_det r) s1) in *. clearbody a1. clear S s1.
  assert (S2 : sim L (mod_obj i (fun o => set_hit (Z.min (o_hit o + 2 * p) (oc_hit_counter_max (o_conf o))) o) a1) s2).
  { apply sim_frame; auto. }
  set (b1 := mod_obj i _ a1) in *. clearbody b1. clear S1 a1.
  set (cnd := (o_initializing (s_store b1 i) && (oc_delay (o_conf (s_store b1 i)) <? o_hit (s_store b1 i))%Z)%bool).
  assert (S3 : sim L (if cnd then acquire_ids i (mod_obj i (set_initializing false) b1) else b1) s2).
  { destruct cnd; auto. apply sim_ids1. apply sim_frame; auto. }
  set (c1 := if cnd then acquire_ids i (mod_obj i (set_initializing false) b1) else b1) in *.
  clearbody c1. clear S2 cnd b1.
  set (mask := over_threshold _ _ (s_heap c1 r)).
  set (counted := match d_scores (s_heap c1 r) with Some _ => mask | None => _ end).
  set (z := flatten (d_absolute_points (s_heap c1 r))).
  destruct (negb (Nat.eqb (List.length counted) _)); [exact S3|].
  assert (S4 : sim L (mod_obj i (fun o => set_point_hits (point_hits_update p (oc_pointwise_max (o_conf o)) counted (o_point_hits o)) o) c1) s2).
  { apply sim_frame; auto. }
  set (x1 := mod_obj i _ c1) in *. clearbody x1.
  destruct (_ || _)%bool; [exact S4|].
  set (diagonal := repeat_each _ _).
  assert (S5 : sim L (mod_obj i (fun o => set_filter (f_update FO (o_filter o) z diagonal) o) x1) s2).
  { apply sim_frame; auto. }
  set (y1 := mod_obj i _ x1) in *. clearbody y1.
  destruct (negb (Nat.eqb (List.length (o_once _)) _)); [exact S5|]. cbn [fst].
  apply sim_frame; auto. apply sim_frame; auto.
Qed.

Lemma sim_add_pasts i j rs : forall s1 s2, In (i, j) L -> Forall ownr rs -> sim L s1 s2 -> agree (add_pasts i rs s1) (add_pasts j rs s2).
Proof.
  induction rs as [|r rs IH]; intros s1 s2 Hij F S; [apply agree_ret, S|]. inversion F; subst. cbn [add_pasts].
  pose proof (sim_cond_add i j r s1 s2 Hij H1 S) as [E S'].
  destruct (cond_add_past i r s1) as [t1 [u1|e1]], (cond_add_past j r s2) as [t2 [u2|e2]]; cbn [fst snd] in E, S'; try discriminate; auto.
  injection E as ->. apply agree_raise, S'.
Qed.
Lemma frame_add_pasts i rs : forall s1 s2, chosen L i = false -> Forall other rs -> sim L s1 s2 -> sim L (fst (add_pasts i rs s1)) s2.
Proof.
  induction rs as [|r rs IH]; intros s1 s2 Hi F S; [exact S|]. inversion F; subst. cbn [add_pasts].
  pose proof (frame_cond_add i r s1 s2 Hi H1 S) as S'.
  destruct (cond_add_past i r s1) as [t1 [u1|e1]]; cbn [fst] in *; auto.
Qed.
Lemma sim_merge i j k l s1 s2 : In (i, j) L -> In (k, l) L -> sim L s1 s2 -> agree (merge i k s1) (merge j l s2).
Proof.
  intros Hij Hkl S. unfold merge. pose proof (sm_obj _ _ _ S k l Hkl) as Ec. pose proof (core_fields _ _ Ec) as (_ & _ & _ & El & _ & _ & _ & _ & Ep & _).
  rewrite <- Ep. pose proof (sm_obj _ _ _ S i j Hij) as Eo.
  apply sim_add_pasts; [exact Hij|exact (sm_past _ _ _ S k l Hkl)|]. apply sim_obj; auto; cbn.
  - set (c1 := s_store s1 k) in *. set (c2 := s_store s2 l) in *. set (o1 := s_store s1 i) in *. set (o2 := s_store s2 j) in *.
    clearbody c1 c2 o1 o2. clear - Ec Eo. core Ec. core Eo. reflexivity.
  - exact (sm_last _ _ _ S k l Hkl).
  - exact (sm_past _ _ _ S i j Hij).
Qed.
Lemma frame_merge i k s1 s2 : chosen L i = false -> chosen L k = false -> 1 <= k <= s_icount s1 -> sim L s1 s2 -> sim L (fst (merge i k s1)) s2.
Proof.
  intros Hi Hk Kk S. unfold merge. pose proof (sm_rest _ _ _ S k Kk Hk) as F. inversion F; subst. apply frame_add_pasts; [exact Hi|assumption|]. apply sim_frame; auto. cbn. intros F'. inversion F'; subst. constructor; assumption.
Qed.
End L.
End Sim.

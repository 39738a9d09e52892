(** Two runs of one tracker whose detections and objects agree up to parts that the association does not look
    at.  Used for C29 (other trackers running in between) and C44 (moving camera). *)
From Coq Require Import ZArith Bool Arith String List Lia.
From Verif Require Import Model.Num Model.Base Model.Matching Model.Filter Model.Tracker Proofs.TrackerFrame.
Import ListNotations.

Section Sim.
Context {N : Num} {FO : filter_ops N}.
Notation st := (st FO).
Notation tobj := (tobj FO).
Notation det := (detection N).
Notation ct := (option (coord_transformation N)).

(** The references this tracker uses, and the parts of the states left free: [d_points] (related by [pd], which
    also sees the absolute points),
    [abs_to_rel] (related by [pa]), global ids and their counter (equal if [pg]). *)
Variable own : nat -> Prop.
Variable pd : nat -> points N -> points N -> points N -> Prop.
Variable pa : nat -> oconf N -> option (points N -> points N) -> option (points N -> points N) -> Prop.
Variable pg : Prop.
Variables h1 h2 : nat -> det.
(** The detections of the call and the objects at its beginning. *)
Variable cur : nat -> Prop.
Variable act : nat -> Prop.
Variable base : nat.
Hypothesis cur_own : forall r, cur r -> own r.
Hypothesis act_old : forall i, act i -> 1 <= i <= base.

Record det_rel (r : nat) (d1 d2 : det) : Prop := MkDR {
  dr_scores : d_scores d1 = d_scores d2;
  dr_label : d_label d1 = d_label d2;
  dr_abs : d_absolute_points d1 = d_absolute_points d2;
  dr_age : d_age d1 = d_age d2;
  dr_data : d_data d1 = d_data d2;
  dr_points : pd r (d_points d1) (d_points d2) (d_absolute_points d1)
}.
(** Everything except global_id and abs_to_rel. *)
Definition erase (o : tobj) : tobj := set_abs_to_rel None (set_ids (o_id o) None o).
Record obj_rel (i : nat) (o1 o2 : tobj) : Prop := MkOR {
  or_core : erase o1 = erase o2;
  or_refs : own (o_last_det o1) /\ Forall own (o_past o1);
  or_abs : pa i (o_conf o1) (o_abs_to_rel o1) (o_abs_to_rel o2);
  or_gid : pg -> o_gid o1 = o_gid o2
}.
Definition known_in (s : st) (i : nat) : Prop := 1 <= i <= s_icount s.
Record sim (s1 s2 : st) : Prop := MkSim {
  sm_in : forall r, own r -> det_rel r (s_heap s1 r) (s_heap s2 r);
  sm_out : forall r, ~ own r -> s_heap s1 r = h1 r /\ s_heap s2 r = h2 r;
  sm_obj : forall i, known_in s1 i -> obj_rel i (s_store s1 i) (s_store s2 i);
  sm_tracked : s_tracked s1 = s_tracked s2;
  sm_known : Forall (known_in s1) (s_tracked s1);
  sm_count : s_count s1 = s_count s2;
  sm_icount : s_icount s1 = s_icount s2;
  sm_gcount : pg -> s_gcount s1 = s_gcount s2;
  sm_base : base <= s_icount s1
}.
(** Outcomes. *)
Definition agree {A} (x1 x2 : st * result A) : Prop :=
  snd x1 = snd x2 /\ sim (fst x1) (fst x2).

Ltac core E := (* fields from equal cores *)
  match type of E with erase ?a = erase ?b => destruct a, b; unfold erase in E; cbn in E; injection E; clear E; intros; subst end.

Lemma core_fields o1 o2 : erase o1 = erase o2 ->
  o_conf o1 = o_conf o2 /\ o_hit o1 = o_hit o2 /\ o_reid o1 = o_reid o2 /\ o_last_distance o1 = o_last_distance o2 /\
  o_min_distance o1 = o_min_distance o2 /\ o_last_det o1 = o_last_det o2 /\ o_age o1 = o_age o2 /\
  o_initializing o1 = o_initializing o2 /\ o_id o1 = o_id o2 /\ o_once o1 = o_once o2 /\ o_point_hits o1 = o_point_hits o2 /\
  o_past o1 = o_past o2 /\ o_filter o1 = o_filter o2.
Proof. intros E. core E. cbn. repeat split. Qed.

(** ** Primitive changes *)
Lemma sim_obj i f1 f2 s1 s2 : sim s1 s2 ->
  (obj_rel i (s_store s1 i) (s_store s2 i) -> obj_rel i (f1 (s_store s1 i)) (f2 (s_store s2 i))) ->
  sim (mod_obj i f1 s1) (mod_obj i f2 s2).
Proof.
  intros [A B C D E F G H I] K. split; cbn; auto.
  intros j Hj. unfold upd. destruct (Nat.eqb_spec j i) as [->|Hne]; auto.
Qed.
Lemma sim_det r f1 f2 s1 s2 : own r -> sim s1 s2 ->
  (det_rel r (s_heap s1 r) (s_heap s2 r) -> det_rel r (f1 (s_heap s1 r)) (f2 (s_heap s2 r))) ->
  sim (mod_det r f1 s1) (mod_det r f2 s2).
Proof.
  intros Ho [A B C D E F G H I] K. split; cbn; auto; intros q Hq; unfold upd; destruct (Nat.eqb_spec q r) as [->|Hne]; auto; contradiction.
Qed.
Lemma sim_tracked l s1 s2 : sim s1 s2 -> Forall (known_in s1) l -> sim (s_set_tracked l s1) (s_set_tracked l s2).
Proof. intros [A B C D E F G H I] K. split; cbn; auto. Qed.
Lemma age_rel r a d1 d2 : det_rel r d1 d2 -> det_rel r (d_set_age a d1) (d_set_age a d2).
Proof. intros [A B C D E F]. split; cbn; auto. Qed.
(** The same change of both objects that does not involve references, global_id and abs_to_rel. *)
Definition plain (f : tobj -> tobj) : Prop := forall o o', erase o = erase o' ->
  erase (f o) = erase (f o') /\ o_last_det (f o) = o_last_det o /\ o_past (f o) = o_past o /\ o_conf (f o) = o_conf o /\
  o_abs_to_rel (f o) = o_abs_to_rel o /\ o_abs_to_rel (f o') = o_abs_to_rel o' /\ o_gid (f o) = o_gid o /\ o_gid (f o') = o_gid o'.
Lemma plain_rel i f o1 o2 : plain f -> obj_rel i o1 o2 -> obj_rel i (f o1) (f o2).
Proof.
  intros P [A B C D]. destruct (P o1 o2 A) as (E1 & E2 & E3 & E4 & E5 & E6 & E7 & E8). split; auto.
  - rewrite E2, E3. exact B.
  - rewrite E4, E5, E6. exact C.
  - rewrite E7, E8. exact D.
Qed.
Lemma sim_plain i f s1 s2 : plain f -> sim s1 s2 -> sim (mod_obj i f s1) (mod_obj i f s2).
Proof. intros P S. apply sim_obj; auto. apply plain_rel, P. Qed.

Ltac plain := intros ? ? E; core E; repeat split.
Lemma plain_hit f : (forall o o', erase o = erase o' -> f o = f o') -> plain (fun o : tobj => set_hit (f o) o).
Proof. intros F o o' E. rewrite (F o o' E). core E. repeat split. Qed.
Lemma plain_init b : plain (set_initializing b).
Proof. plain. Qed.
Lemma plain_ph f : (forall o o', erase o = erase o' -> f o = f o') -> plain (fun o : tobj => set_point_hits (f o) o).
Proof. intros F o o' E. rewrite (F o o' E). core E. repeat split. Qed.
Lemma plain_filter f : (forall o o', erase o = erase o' -> f o = f o') -> plain (fun o : tobj => set_filter (f o) o).
Proof. intros F o o' E. rewrite (F o o' E). core E. repeat split. Qed.
Lemma plain_once f : (forall o o', erase o = erase o' -> f o = f o') -> plain (fun o : tobj => set_once (f o) o).
Proof. intros F o o' E. rewrite (F o o' E). core E. repeat split. Qed.
Lemma plain_min v : plain (set_min_distance v).
Proof. plain. Qed.
Lemma plain_dist v : plain (set_last_distance v).
Proof. plain. Qed.
Lemma plain_step : plain (@tracker_step N FO).
Proof. intros o o' E. core E. cbn. repeat split. Qed.

Lemma sim_last i r s1 s2 : own r -> sim s1 s2 -> sim (mod_obj i (set_last_det r) s1) (mod_obj i (set_last_det r) s2).
Proof.
  intros Ho S. apply sim_obj; auto. intros [A [B B'] C D]. split; cbn; auto. core A. reflexivity.
Qed.
Lemma sim_past i l s1 s2 : Forall own l -> sim s1 s2 -> sim (mod_obj i (set_past l) s1) (mod_obj i (set_past l) s2).
Proof.
  intros Ho S. apply sim_obj; auto. intros [A [B B'] C D]. split; cbn; auto. core A. reflexivity.
Qed.
Lemma sim_ids i s1 s2 : known_in s1 i -> sim s1 s2 -> sim (acquire_ids i s1) (acquire_ids i s2).
Proof.
  intros Hi [A B C D E F G H I]. unfold acquire_ids. split; cbn; auto.
  - intros j Hj. unfold upd. destruct (Nat.eqb_spec j i) as [->|Hne]; auto. destruct (C i Hi) as [A' [B' B''] C' D'].
    split; cbn; auto. rewrite F. clear -A'. core A'. reflexivity.
Qed.

(** ** Methods of objects *)
Lemma agree_ret {A} (a : A) s1 s2 : sim s1 s2 -> agree (s1, Ret a) (s2, Ret a).
Proof. intros S. split; auto. Qed.
Lemma agree_raise {A} e s1 s2 : sim s1 s2 -> agree (A:=A) (s1, Raise e) (s2, Raise e).
Proof. intros S. split; auto. Qed.

Lemma act_known s1 s2 i : sim s1 s2 -> act i -> known_in s1 i.
Proof. intros S Hi. apply act_old in Hi. pose proof (sm_base _ _ S). unfold known_in. lia. Qed.

Lemma sim_cond_add i r s1 s2 : known_in s1 i -> own r -> sim s1 s2 -> agree (cond_add_past i r s1) (cond_add_past i r s2).
Proof.
  intros Hi Ho S. unfold cond_add_past.
  destruct (core_fields _ _ (or_core _ _ _ (sm_obj _ _ S i Hi))) as (E1 & E2 & E3 & E4 & E5 & E6 & E7 & E8 & E9 & E10 & E11 & E12 & E13).
  destruct (or_refs _ _ _ (sm_obj _ _ S i Hi)) as [R1 R2].
  rewrite <- E1, <- E12, <- E7. destruct (Nat.eqb _ 0); [apply agree_ret, S|].
  destruct (Nat.ltb _ _).
  - apply agree_ret. apply sim_obj; [apply sim_det; auto; apply age_rel|]. cbn. intros [A [B B'] C D]. split; cbn; auto.
    + core A. reflexivity.
    + split; auto. apply Forall_app. auto.
  - destruct (o_past (s_store s1 i)) as [|first rest] eqn:Ep; [apply agree_raise, S|].
    inversion R2; subst. rewrite <- (dr_age _ _ _ (sm_in _ _ S first H1)).
    destruct (d_age _); [|apply agree_raise, S]. destruct (Z.leb _ _); [|apply agree_ret, S].
    apply agree_ret. apply sim_past; [apply Forall_app; auto|]. apply sim_det; auto. apply age_rel.
Qed.

Lemma sim_fields i s1 s2 : known_in s1 i -> sim s1 s2 -> erase (s_store s1 i) = erase (s_store s2 i).
Proof. intros Hi S. exact (or_core _ _ _ (sm_obj _ _ S i Hi)). Qed.

Lemma sim_hit i r p s1 s2 : act i -> own r -> sim s1 s2 -> agree (hit i r p s1) (hit i r p s2).
Proof.
  intros Hi Ho S. pose proof (sim_cond_add i r s1 s2 (act_known _ _ _ S Hi) Ho S) as [E S']. unfold hit.
  destruct (cond_add_past i r s1) as [t1 [u1|e1]], (cond_add_past i r s2) as [t2 [u2|e2]]; cbn [fst snd] in E, S'; try discriminate.
  2: { injection E as ->. apply agree_raise, S'. }
  clear E S s1 s2 u1 u2. rename t1 into s1, t2 into s2, S' into S.
  assert (S1 := sim_last i r s1 s2 Ho S).
  set (a1 := mod_obj i (set_last_det r) s1) in *. set (a2 := mod_obj i (set_last_det r) s2) in *. clearbody a1 a2. clear S s1 s2.
  assert (S2 : sim (mod_obj i (fun o => set_hit (Z.min (o_hit o + 2 * p) (oc_hit_counter_max (o_conf o))) o) a1)
                   (mod_obj i (fun o => set_hit (Z.min (o_hit o + 2 * p) (oc_hit_counter_max (o_conf o))) o) a2)).
  { apply sim_plain; auto. apply plain_hit. intros o o' E. core E. reflexivity. }
  set (b1 := mod_obj i _ a1) in *. set (b2 := mod_obj i _ a2) in *. clearbody b1 b2. clear S1 a1 a2.
  pose proof (act_known _ _ _ S2 Hi) as Hk.
  destruct (core_fields _ _ (sim_fields i b1 b2 Hk S2)) as (E1 & E2 & _ & _ & _ & _ & _ & E8 & _).
  rewrite <- E1, <- E2, <- E8.
  set (cnd := (o_initializing (s_store b1 i) && (oc_delay (o_conf (s_store b1 i)) <? o_hit (s_store b1 i))%Z)%bool).
  assert (S3 : sim (if cnd then acquire_ids i (mod_obj i (set_initializing false) b1) else b1)
                   (if cnd then acquire_ids i (mod_obj i (set_initializing false) b2) else b2)).
  { destruct cnd; auto. apply sim_ids; [exact Hk|]. apply sim_plain; auto. apply plain_init. }
  set (c1 := if cnd then acquire_ids i (mod_obj i (set_initializing false) b1) else b1) in *.
  set (c2 := if cnd then acquire_ids i (mod_obj i (set_initializing false) b2) else b2) in *.
  clearbody c1 c2. clear S2 E1 E2 E8 Hk cnd b1 b2.
  pose proof (act_known _ _ _ S3 Hi) as Hk. pose proof (sim_fields i c1 c2 Hk S3) as Ec.
  destruct (core_fields _ _ Ec) as (E1 & _ & _ & _ & _ & _ & _ & _ & _ & E10 & E11 & _).
  pose proof (sm_in _ _ S3 r Ho) as [D1 _ D3 _ _ _].
  assert (Eo : forall thr n, over_threshold thr n (s_heap c1 r) = over_threshold thr n (s_heap c2 r)) by (intros; unfold over_threshold; rewrite D1; reflexivity).
  assert (Ed : dim_z (s_store c1 i) = dim_z (s_store c2 i)) by (unfold dim_z; rewrite E1; reflexivity). rewrite <- E1, <- E10, <- E11, <- Ed, <- D1, <- D3, <- !Eo.
  set (mask := over_threshold _ _ (s_heap c1 r)).
  set (counted := match d_scores (s_heap c1 r) with Some _ => mask | None => _ end).
  set (z := flatten (d_absolute_points (s_heap c1 r))).
  destruct (negb (Nat.eqb (List.length counted) _)); [apply agree_raise, S3|].
  assert (S4 : sim (mod_obj i (fun o => set_point_hits (point_hits_update p (oc_pointwise_max (o_conf o)) counted (o_point_hits o)) o) c1)
                   (mod_obj i (fun o => set_point_hits (point_hits_update p (oc_pointwise_max (o_conf o)) counted (o_point_hits o)) o) c2)).
  { apply sim_plain; auto. apply plain_ph. intros o o' E. core E. reflexivity. }
  set (x1 := mod_obj i _ c1) in *. set (x2 := mod_obj i _ c2) in *. clearbody x1 x2.
  destruct (_ || _)%bool; [apply agree_raise, S4|].
  set (diagonal := repeat_each _ _).
  assert (S5 : sim (mod_obj i (fun o => set_filter (f_update FO (o_filter o) z diagonal) o) x1)
                   (mod_obj i (fun o => set_filter (f_update FO (o_filter o) z diagonal) o) x2)).
  { apply sim_plain; auto. apply plain_filter. intros o o' E. core E. reflexivity. }
  set (y1 := mod_obj i _ x1) in *. set (y2 := mod_obj i _ x2) in *. clearbody y1 y2.
  destruct (negb (Nat.eqb (List.length (o_once _)) _)); [apply agree_raise, S5|].
  apply agree_ret. apply sim_plain; [apply plain_once; intros o o' E; core E; reflexivity|].
  apply sim_plain; [apply plain_filter; intros o o' E; core E; reflexivity|]. exact S5.
Qed.

Lemma sim_add_pasts i rs : forall s1 s2, act i -> Forall own rs -> sim s1 s2 -> agree (add_pasts i rs s1) (add_pasts i rs s2).
Proof.
  induction rs as [|r rs IH]; intros s1 s2 Hi F S; [apply agree_ret, S|]. inversion F; subst. cbn [add_pasts].
  pose proof (sim_cond_add i r s1 s2 (act_known _ _ _ S Hi) H1 S) as [E S'].
  destruct (cond_add_past i r s1) as [t1 [u1|e1]], (cond_add_past i r s2) as [t2 [u2|e2]]; cbn [fst snd] in E, S'; try discriminate; auto.
  injection E as ->. apply agree_raise, S'.
Qed.
Lemma sim_merge i j s1 s2 : act i -> act j -> sim s1 s2 -> agree (merge i j s1) (merge i j s2).
Proof.
  intros Hi Hj S. unfold merge. pose proof (sm_obj _ _ S j (act_known _ _ _ S Hj)) as [Ec [R1 R2] _ _].
  assert (Ep : o_past (s_store s2 j) = o_past (s_store s1 j)) by (clear -Ec; core Ec; reflexivity). rewrite Ep.
  apply sim_add_pasts; auto. apply sim_obj; auto. intros [A [B B'] C D].
  set (c1 := s_store s1 j) in *. set (c2 := s_store s2 j) in *. set (o1 := s_store s1 i) in *. set (o2 := s_store s2 i) in *.
  clearbody c1 c2 o1 o2. split.
  - clear -A Ec. core A. core Ec. reflexivity.
  - split; [exact R1|exact B'].
  - exact C.
  - exact D.
Qed.

(** ** The association *)
Variable rnd : dval N -> dval N.
Definition cand_ok (c : cand) : Prop := match c with CDet r => cur r | CObj i => act i end.
Definition same_distances (d : distance FO) : Prop := forall s1 s2 objects cands, sim s1 s2 -> Forall act objects -> Forall cand_ok cands ->
  get_distances rnd d s1 objects cands = get_distances rnd d s2 objects cands.

Lemma sim_min thr M objects : forall j s1 s2, sim s1 s2 -> sim (set_min_distances thr M j objects s1) (set_min_distances thr M j objects s2).
Proof. induction objects as [|i objects IH]; intros j s1 s2 S; cbn; auto. apply IH, sim_plain; auto. apply plain_min. Qed.

Lemma remove_first_Forall (P : nat -> Prop) x l : Forall P l -> Forall P (remove_first x l).
Proof. induction 1; cbn; auto. destruct (Nat.eqb _ _); auto. Qed.

Lemma sim_matches thr M objects cands p pairs : Forall act objects -> Forall cand_ok cands -> forall uc mo uo s1 s2, sim s1 s2 ->
  agree (apply_matches thr M objects cands p pairs uc mo uo s1) (apply_matches thr M objects cands p pairs uc mo uo s2).
Proof.
  intros Fo Fc. rewrite Forall_forall in Fo, Fc. induction pairs as [|[ci oi] pairs IH]; intros uc mo uo s1 s2 S; [apply agree_ret, S|].
  cbn [apply_matches]. destruct (nth_error cands ci) as [c|] eqn:Ec; [|apply agree_raise, S].
  destruct (nth_error objects oi) as [i|] eqn:Ei; [|apply agree_raise, S].
  apply nth_error_In in Ec, Ei. apply Fc in Ec. apply Fo in Ei. destruct (dltb _ thr); [|apply IH, S]. destruct c as [r|j]; cbn in Ec.
  - pose proof (sim_hit i r p s1 s2 Ei (cur_own r Ec) S) as [E S'].
    destruct (hit i r p s1) as [t1 [u1|e1]], (hit i r p s2) as [t2 [u2|e2]]; cbn [fst snd] in E, S'; try discriminate.
    + apply IH, sim_plain; auto. apply plain_dist.
    + injection E as ->. apply agree_raise, S'.
  - pose proof (sim_merge i j s1 s2 Ei Ec S) as [E S'].
    destruct (merge i j s1) as [t1 [u1|e1]], (merge i j s2) as [t2 [u2|e2]]; cbn [fst snd] in E, S'; try discriminate.
    + rewrite <- (sm_tracked _ _ S'). destruct (existsb _ _); [|apply agree_raise, S'].
      apply IH, sim_tracked; auto. apply remove_first_Forall, (sm_known _ _ S').
    + injection E as ->. apply agree_raise, S'.
Qed.
Lemma sim_phase d thr objects cands p s1 s2 : same_distances d -> Forall act objects -> Forall cand_ok cands -> sim s1 s2 ->
  agree (update_objects_in_place rnd d thr objects cands p s1) (update_objects_in_place rnd d thr objects cands p s2).
Proof.
  intros Hd Fo Fc S. unfold update_objects_in_place. destruct cands as [|c0 cands0]; [apply agree_ret, S|].
  set (cands := c0 :: cands0) in *. clearbody cands. rewrite <- (Hd s1 s2 objects cands S Fo Fc).
  destruct (get_distances rnd d s1 objects cands) as [M|e]; [|apply agree_raise, S].
  destruct (existsb dis_nan _); [apply agree_raise, S|].
  assert (S' : sim (if existsb dtruth (List.concat M) then set_min_distances thr M 0 objects s1 else s1)
                   (if existsb dtruth (List.concat M) then set_min_distances thr M 0 objects s2 else s2))
    by (destruct (existsb dtruth _); auto; apply sim_min, S).
  set (t1 := if existsb dtruth (List.concat M) then _ else s1) in *. set (t2 := if existsb dtruth (List.concat M) then _ else s2) in *.
  clearbody t1 t2. destruct (match_dets_and_objs rnd thr M) as [[cis ois]|]; [|apply agree_raise, S'].
  destruct cis; [apply agree_ret, S'|]. apply sim_matches; auto.
Qed.

(** ** New objects *)
Variable cf : tconf FO.
Variables ct1 ct2 : ct.
Definition rel_of (T : ct) : option (points N -> points N) := match T with None => None | Some T => Some (ct_abs_to_rel T) end.
Definition first_dim (p : points N) : nat := match p with [] => 0 | row :: _ => List.length row end.
Hypothesis new_abs : forall i conf r s1 s2, sim s1 s2 -> cur r -> base < i ->
  oc_dim_points conf = first_dim (d_absolute_points (s_heap s1 r)) -> oc_num_points conf = List.length (d_absolute_points (s_heap s1 r)) ->
  pa i conf (rel_of ct1) (rel_of ct2).

Lemma sim_create r p s1 s2 : cur r -> sim s1 s2 -> sim (create_object cf r p ct1 s1) (create_object cf r p ct2 s2).
Proof.
  intros Hc HS. pose proof (cur_own r Hc) as Ho. unfold create_object.
  pose proof (sm_in _ _ HS r Ho) as [D1 D2 D3 D4 D5 D6]. unfold over_threshold. rewrite <- D1, <- D2, <- D3.
  rewrite <- (sm_icount _ _ HS).
  set (once := match d_scores (s_heap s1 r) with None => _ | Some _ => _ end).
  set (conf := MkOconf _ _ _ _ _ _ _ _ _ _ _).
  assert (Hpa : pa (S (s_icount s1)) conf (rel_of ct1) (rel_of ct2)).
  { apply (new_abs _ conf r s1 s2 HS Hc); [pose proof (sm_base _ _ HS); lia|reflexivity|reflexivity]. }
  set (filt := f_create FO _). set (iid := S (s_icount s1)) in *.
  fold (rel_of ct1). fold (rel_of ct2).
  set (o1 := MkObj conf p None None None r 0%Z (p <=? tc_delay cf)%Z None None once _ _ filt (rel_of ct1)).
  set (o2 := MkObj conf p None None None r 0%Z (p <=? tc_delay cf)%Z None None once _ _ filt (rel_of ct2)).
  assert (Hor : obj_rel iid o1 o2).
  { split; [reflexivity| |exact Hpa|reflexivity]. split; [exact Ho|]. cbn [o_past o1]. destruct (Nat.ltb 0 _); auto. }
  assert (S1 : sim (MkSt (s_heap s1) (s_gcount s1) (upd (s_store s1) iid o1) (s_tracked s1) (s_count s1) iid)
                   (MkSt (s_heap s2) (s_gcount s2) (upd (s_store s2) iid o2) (s_tracked s2) (s_count s2) iid)).
  { destruct HS as [A B C D E F G H I]. split; cbn; auto.
    - intros i [Hi1 Hi2]. cbn in Hi2. unfold upd. destruct (Nat.eqb_spec i iid) as [->|Hne]; auto. apply C. split; lia.
    - eapply Forall_impl; [|exact E]. intros i [X Y]. split; cbn; lia.
    - unfold iid. lia. }
  set (x1 := MkSt (s_heap s1) _ _ _ _ _) in *. set (x2 := MkSt (s_heap s2) _ _ _ _ _) in *.
  assert (Hk : known_in x1 iid) by (unfold x1, iid; split; cbn; lia).
  assert (Hi1 : s_icount x1 = iid) by reflexivity.
  clearbody x1 x2.
  assert (S2 : sim (if (p <=? tc_delay cf)%Z then x1 else acquire_ids iid x1) (if (p <=? tc_delay cf)%Z then x2 else acquire_ids iid x2))
    by (destruct (Z.leb p _); auto; apply sim_ids; auto).
  set (y1 := if (p <=? tc_delay cf)%Z then x1 else _) in *. set (y2 := if (p <=? tc_delay cf)%Z then x2 else _) in *.
  assert (Hk2 : known_in y1 iid) by (unfold y1; destruct (Z.leb p _); exact Hk). clearbody y1 y2.
  assert (S3 : sim (mod_det r (d_set_age 0) y1) (mod_det r (d_set_age 0) y2)) by (apply sim_det; auto; apply age_rel).
  rewrite <- (sm_tracked _ _ S3). apply sim_tracked; auto. apply Forall_app. split; [exact (sm_known _ _ S3)|]. constructor; auto.
Qed.
Lemma sim_creates cands p : forall s1 s2, Forall cand_ok cands -> sim s1 s2 -> agree (create_objects cf cands p ct1 s1) (create_objects cf cands p ct2 s2).
Proof.
  induction cands as [|[r|j] cands IH]; intros s1 s2 F S; cbn; [apply agree_ret, S| |apply agree_raise, S].
  inversion F; subst. apply IH; auto. apply sim_create; auto.
Qed.
Lemma active_same s1 s2 : sim s1 s2 -> get_active_objects s1 = get_active_objects s2.
Proof.
  intros S. unfold get_active_objects. rewrite <- (sm_tracked _ _ S). pose proof (sm_known _ _ S) as K. rewrite Forall_forall in K.
  apply filter_ext_in. intros i Hi. pose proof (sim_fields i s1 s2 (K i Hi) S) as E. unfold is_active, hit_counter_is_positive. clear -E. core E. reflexivity.
Qed.
Lemma filter_same s1 s2 (f : tobj -> bool) l : sim s1 s2 -> (forall o o', erase o = erase o' -> f o = f o') -> Forall (known_in s1) l ->
  filter (fun i => f (s_store s1 i)) l = filter (fun i => f (s_store s2 i)) l.
Proof.
  intros S Hf K. rewrite Forall_forall in K. apply filter_ext_in. intros i Hi. apply Hf, (sim_fields i s1 s2 (K i Hi) S).
Qed.
Hypothesis rnd_is : rnd = tc_rnd cf.
Hypothesis dist_ok : same_distances (tc_distance cf).
Hypothesis reid_ok : forall f, tc_reid_distance cf = Some f -> same_distances (ScalarDistance f).
Lemma Forall_incl {A} (P : A -> Prop) l l' : incl l l' -> Forall P l' -> Forall P l.
Proof. rewrite !Forall_forall. auto. Qed.
Lemma filter_incl {A} (f : A -> bool) l : incl (filter f l) l.
Proof. intros x Hx. apply filter_In in Hx. tauto. Qed.
Lemma sim_associate alive dead dets p s1 s2 : Forall act alive -> Forall act dead -> Forall cur dets -> sim s1 s2 ->
  agree (associate cf alive dead dets p ct1 s1) (associate cf alive dead dets p ct2 s2).
Proof.
  intros Fa Fd Fc S. unfold associate. rewrite <- rnd_is.
  assert (Fk : Forall (known_in s1) alive) by (eapply Forall_impl; [|exact Fa]; intros i; apply (act_known s1 s2 i S)).
  rewrite <- (filter_same s1 s2 (fun o => negb (o_initializing o)) alive S) by (auto; intros o o' E; core E; reflexivity).
  assert (Fdets : Forall cand_ok (map CDet dets)) by (rewrite Forall_map; exact Fc).
  match goal with |- context [update_objects_in_place rnd (tc_distance cf) ?thr ?obs ?cs p s1] =>
    pose proof (sim_phase (tc_distance cf) thr obs cs p s1 s2 dist_ok (Forall_incl _ _ _ (filter_incl _ _) Fa) Fdets S) as [E S'];
    destruct (update_objects_in_place rnd (tc_distance cf) thr obs cs p s1) as [t1 [[[um1 mo1] ui1]|e1]] eqn:U1;
    destruct (update_objects_in_place rnd (tc_distance cf) thr obs cs p s2) as [t2 [[[um2 mo2] ui2]|e2]] eqn:U2;
    cbn [fst snd] in E, S'; try discriminate; injection E; clear E; intros; subst; [|apply agree_raise, S'] end.
  apply uip_unmatched_incl in U1 as (_ & Iui & Ium). clear U2.
  assert (Fum : Forall cand_ok um2) by (eapply Forall_incl; eauto).
  assert (Fui : Forall act ui2) by (eapply Forall_incl; [exact Iui|eapply Forall_incl; [apply filter_incl|exact Fa]]).
  assert (Fk' : Forall (known_in t1) alive) by (eapply Forall_impl; [|exact Fa]; intros i; apply (act_known t1 t2 i S')).
  rewrite <- (filter_same t1 t2 (fun o => o_initializing o) alive S') by (auto; intros o o' E; core E; reflexivity).
  match goal with |- context [update_objects_in_place ?r (tc_distance cf) ?thr ?obs ?cs p t1] =>
    pose proof (sim_phase (tc_distance cf) thr obs cs p t1 t2 dist_ok (Forall_incl _ _ _ (filter_incl _ _) Fa) Fum S') as [E S''];
    destruct (update_objects_in_place r (tc_distance cf) thr obs cs p t1) as [v1 [[[vm1 vo1] vi1]|e1]] eqn:V1;
    destruct (update_objects_in_place r (tc_distance cf) thr obs cs p t2) as [v2 [[[vm2 vo2] vi2]|e2]] eqn:V2;
    cbn [fst snd] in E, S''; try discriminate; injection E; clear E; intros; subst; [|apply agree_raise, S''] end.
  apply uip_unmatched_incl in V1 as (Ivo & _ & Ivm). clear V2.
  assert (Fvm : Forall cand_ok vm2) by (eapply Forall_incl; eauto).
  assert (Fvo : Forall act vo2) by (eapply Forall_incl; [exact Ivo|eapply Forall_incl; [apply filter_incl|exact Fa]]).
  assert (R : agree (reid_phase cf (ui2 ++ dead) vo2 p v1) (reid_phase cf (ui2 ++ dead) vo2 p v2)).
  { unfold reid_phase. rewrite <- rnd_is. destruct (tc_reid_distance cf) as [f|] eqn:Ef; [|apply agree_ret, S''].
    pose proof (sim_phase (ScalarDistance f) (tc_reid_threshold cf) (ui2 ++ dead) (map CObj vo2) p v1 v2 (reid_ok f eq_refl)) as X.
    destruct X as [E X]; auto; [apply Forall_app; auto|rewrite Forall_map; exact Fvo|].
    destruct (update_objects_in_place rnd (ScalarDistance f) _ _ _ p v1) as [w1 [x1|e1]];
    destruct (update_objects_in_place rnd (ScalarDistance f) _ _ _ p v2) as [w2 [x2|e2]]; cbn [fst snd] in E, X; try discriminate;
    [apply agree_ret, X|injection E as ->; apply agree_raise, X]. }
  destruct R as [E R]. destruct (reid_phase cf _ vo2 p v1) as [w1 [x1|e1]], (reid_phase cf _ vo2 p v2) as [w2 [x2|e2]]; cbn [fst snd] in E, R; try discriminate;
    [|injection E as ->; apply agree_raise, R].
  pose proof (sim_creates vm2 p w1 w2 Fvm R) as [E' R'].
  destruct (create_objects cf vm2 p ct1 w1) as [z1 [y1|e1]], (create_objects cf vm2 p ct2 w2) as [z2 [y2|e2]]; cbn [fst snd] in E', R'; try discriminate;
    [|injection E' as ->; apply agree_raise, R'].
  rewrite <- (active_same z1 z2 R'). apply agree_ret, R'.
Qed.
End Sim.

(** The complete effect of a call of [update] that returns normally. *)
From Coq Require Import ZArith Bool Arith String List Lia Permutation.
From Verif Require Import Model.Num Model.Base Model.Matching Model.Filter Model.Tracker
  Spec.MatchingSpec Proofs.NumLaws Proofs.MatchingProofs Proofs.TrackerFrame Proofs.Identity Proofs.Effect.
Import ListNotations.

Section CallEffect.
Context {N : Num} {FO : filter_ops N} (laws : NumLaws N).
Notation st := (st FO).
Notation tobj := (tobj FO).
Notation det := (detection N).
Notation hitrec := (nat * nat * dval N)%type.

(** Live objects that are initialized / still initializing when the call starts. *)
Definition inits (c : tconf FO) (s : st) : list nat :=
  filter (fun i => negb (o_initializing (s_store s i))) (alive c s).
Definition uninits (c : tconf FO) (s : st) : list nat :=
  filter (fun i => o_initializing (s_store s i)) (alive c s).

Record phase_hits (c : tconf FO) (objects rs : list nat) (p : Z) (s s' : st) (H : list hitrec) (rest un : list nat) : Prop := MkPhaseHits {
  pd_ex : exists M pairs sa,
    phase (tc_rnd c) (tc_distance c) (tc_threshold c) objects (map CDet rs) s M pairs sa /\
    H = map (mk_hit M objects rs) pairs /\ hits p H sa s' /\
    rest = not_in_idxs (map fst pairs) 0 rs /\ un = not_in_idxs (map snd pairs) 0 objects
}.
Definition phase_merges (c : tconf FO) (objects js : list nat) (p : Z) (s s' : st) (G : list hitrec) : Prop :=
  (tc_reid_distance c = None /\ G = [] /\ s' = s) \/
  (exists f M pairs sa, tc_reid_distance c = Some f /\
     phase (tc_rnd c) (ScalarDistance f) (tc_reid_threshold c) objects (map CObj js) s M pairs sa /\
     G = map (mk_hit M objects js) pairs /\ merges G sa s').

Record effect (c : tconf FO) (dets : list nat) (p : Z) (ct : option (coord_transformation N)) (s s0 s1 s2 s3 s' : st)
    (H1 H2 G : list hitrec) (rest1 news un1 : list nat) : Prop := {
  e_step : stepped c dets ct s s0;
  e_phase1 : phase_hits c (inits c s) dets p s0 s1 H1 rest1 un1;
  e_phase2 : exists un2, phase_hits c (uninits c s) rest1 p s1 s2 H2 news un2;
  e_phase3 : phase_merges c (un1 ++ dead c s) (map h_obj H2) p s2 s3 G;
  e_create : creates_frame c news p ct s3 s';
  e_create_raw : exists u, create_objects c (map CDet news) p ct s3 = (s', Ret u)
}.

Definition dets_of (detections : option (list nat)) : list nat := match detections with None => [] | Some l => l end.

(* ---- facts about one phase ---- *)
Lemma label_eqb_eq a b : label_eqb a b = true <-> a = b.
Proof.
  destruct a, b; cbn; split; intros H; try discriminate; auto.
  - apply Z.eqb_eq in H. congruence. - injection H as ->. apply Z.eqb_refl.
  - apply String.eqb_eq in H. congruence. - injection H as ->. apply String.eqb_refl.
Qed.

Lemma phase_labels rnd f thr objects cands (s : st) M pairs s1 :
  phase rnd (ScalarDistance f) thr objects cands s M pairs s1 ->
  forall ci oi c i, In (ci, oi) pairs -> nth_error cands ci = Some c -> nth_error objects oi = Some i ->
  cand_label s c = obj_label s i.
Proof.
  intros [Pm Pr Pn Pf Pmin] ci oi c i Hin Hc Hi.
  assert (Hne : cands <> []) by (destruct cands; [destruct ci; discriminate|discriminate]).
  specialize (Pm Hne). cbn in Pm. apply scalar_entries in Pm as [_ Hent].
  specialize (Hent ci oi c i Hc Hi). destruct Pf as (_ & _ & Hb & _). specialize (Hb ci oi Hin).
  destruct (label_eqb (cand_label s c) (obj_label s i)) eqn:El; [apply label_eqb_eq; auto|]. cbn in Hent.
  injection Hent as Hent. rewrite <- Hent in Hb. unfold dlt in Hb. destruct thr; discriminate.
Qed.

Lemma phase_dist rnd f thr objects cands (s : st) M pairs s1 :
  phase rnd (ScalarDistance f) thr objects cands s M pairs s1 ->
  forall ci oi c i, In (ci, oi) pairs -> nth_error cands ci = Some c -> nth_error objects oi = Some i ->
  exists d, f (view_cand s c) (view_obj s i) = Ret d /\ entry M ci oi = rnd d.
Proof.
  intros P ci oi c i Hin Hc Hi. pose proof (phase_labels _ _ _ _ _ _ _ _ _ P _ _ _ _ Hin Hc Hi) as El.
  destruct P as [Pm Pr Pn Pf Pmin].
  assert (Hne : cands <> []) by (destruct cands; [destruct ci; discriminate|discriminate]).
  specialize (Pm Hne). cbn in Pm. apply scalar_entries in Pm as [_ Hent].
  specialize (Hent ci oi c i Hc Hi). apply label_eqb_eq in El. rewrite El in Hent. cbn in Hent.
  destruct (f (view_cand s c) (view_obj s i)) as [d|e]; [|discriminate]. injection Hent as <-. eauto.
Qed.

Lemma mk_hit_in (M : matrix N) objects rs pairs i r dist n m : in_range n m pairs ->
  n = List.length rs -> m = List.length objects ->
  In (i, r, dist) (map (mk_hit M objects rs) pairs) ->
  exists ci oi, In (ci, oi) pairs /\ nth_error rs ci = Some r /\ nth_error objects oi = Some i /\ dist = entry M ci oi.
Proof.
  intros Hr -> -> H. apply in_map_iff in H as ([ci oi] & E & Hin). injection E as <- <- <-.
  destruct (Hr ci oi Hin) as [A B]. exists ci, oi. split; auto. cbn. split; [|split; auto]; apply nth_error_nth'; auto.
Qed.

Lemma NoDup_map_nth (l idxs : list nat) : NoDup l -> NoDup idxs -> (forall i, In i idxs -> i < List.length l) ->
  NoDup (map (fun k => nth k l 0) idxs).
Proof.
  intros Hl. induction 1 as [|k idxs Hk Hnd IH]; intros Hr; cbn; constructor.
  - intros C. apply in_map_iff in C as (k' & E & Hk').
    assert (k' = k); [|subst; auto]. eapply (proj1 (NoDup_nth l 0)); eauto.
    + apply Hr; right; auto. + apply Hr; left; auto.
  - apply IH. intros i Hi. apply Hr; right; auto.
Qed.

Lemma final_facts n m thr (M : matrix N) pairs : final n m thr M pairs ->
  NoDup (map fst pairs) /\ NoDup (map snd pairs) /\
  (forall k, In k (map fst pairs) -> k < n) /\ (forall k, In k (map snd pairs) -> k < m).
Proof.
  intros ((A & B) & C & _). repeat split; auto; intros k Hk; apply in_map_iff in Hk as ([x y] & <- & Hk); apply C in Hk; cbn; tauto.
Qed.

Lemma mk_hit_obj (M : matrix N) objects rs pairs : map h_obj (map (mk_hit M objects rs) pairs) = map (fun k => nth k objects 0) (map (@snd nat nat) pairs).
Proof. rewrite !map_map. reflexivity. Qed.
Lemma mk_hit_det (M : matrix N) objects rs pairs : map h_det (map (mk_hit M objects rs) pairs) = map (fun k => nth k rs 0) (map (@fst nat nat) pairs).
Proof. rewrite !map_map. reflexivity. Qed.

Lemma phase_hits_facts c objects rs p (s s' : st) H rest un :
  NoDup objects -> phase_hits c objects rs p s s' H rest un ->
  NoDup (map h_obj H) /\ Permutation rs (map h_det H ++ rest) /\ Permutation objects (map h_obj H ++ un) /\
  heap_age (s_heap s) (s_heap s') /\ s_tracked s' = s_tracked s /\ s_icount s' = s_icount s /\
  (forall i r dist, In (i, r, dist) H -> exists om, upto_min (s_store s i) om /\
       hit_obj_rel (s_heap s) p r dist om (s_store s' i)) /\
  (forall i, ~ In i (map h_obj H) -> upto_min (s_store s i) (s_store s' i)) /\
  (forall i, ~ In i objects -> s_store s' i = s_store s i) /\
  (forall i r dist, In (i, r, dist) H -> dlt dist (tc_threshold c) /\
     forall f, tc_distance c = ScalarDistance f -> d_label (s_heap s r) = obj_label s i /\
       exists d, f (VDet (s_heap s r)) (view_obj s i) = Ret d /\ dist = tc_rnd c d).
Proof.
  intros Hnd [(M & pairs & sa & [Pm Pr Pn Pf Pmin] & -> & Hh & -> & ->)].
  destruct (final_facts _ _ _ _ _ Pf) as (F1 & F2 & F3 & F4). rewrite map_length in F3.
  assert (HndH : NoDup (map h_obj (map (mk_hit M objects rs) pairs))).
  { rewrite mk_hit_obj. apply NoDup_map_nth; auto. }
  pose proof (hits_effect _ _ _ _ Hh HndH) as [A B C D E].
  destruct Pmin as [m1 m2 m3 m4 m5 m6 m7].
  assert (Po : Permutation objects (map h_obj (map (mk_hit M objects rs) pairs) ++ not_in_idxs (map snd pairs) 0 objects)).
  { rewrite mk_hit_obj. apply select_perm; auto. }
  split; [exact HndH|]. split; [rewrite mk_hit_det; apply select_perm; auto|]. split; [exact Po|].
  rewrite m1 in A. split; [exact A|]. split; [congruence|]. split; [congruence|]. split; [|split; [|split]].
  - intros i r dist Hin. exists (s_store sa i). split; [apply m2|]. rewrite <- m1. auto.
  - intros i Hi. rewrite C by auto. apply m2.
  - intros i Hi. rewrite C; [apply m3; auto|]. intros X. apply Hi. eapply Permutation_in; [symmetry; exact Po|].
    apply in_app_iff; auto.
  - intros i r dist Hin. destruct Pf as (Q1 & Q2 & Q3 & Q4).
    destruct (mk_hit_in _ _ _ _ _ _ _ _ _ Q2 (map_length _ _) eq_refl Hin) as (ci & oi & K1 & K2 & K3 & ->).
    split; [apply Q3; auto|]. intros f Ef. rewrite Ef in Pm.
    assert (PH : phase (tc_rnd c) (ScalarDistance f) (tc_threshold c) objects (map CDet rs) s M pairs sa).
    { constructor; auto; [exact (conj Q1 (conj Q2 (conj Q3 Q4)))|constructor; auto]. }
    assert (K4 : nth_error (map (@CDet) rs) ci = Some (CDet r)) by (rewrite nth_error_map, K2; reflexivity).
    split; [exact (phase_labels _ _ _ _ _ _ _ _ _ PH _ _ _ _ K1 K4 K3)|exact (phase_dist _ _ _ _ _ _ _ _ _ PH _ _ _ _ K1 K4 K3)].
Qed.

Lemma phase_merges_facts c objects js p (s s' : st) G :
  NoDup objects -> NoDup js -> (forall i, In i objects -> ~ In i js) -> NoDup (s_tracked s) ->
  phase_merges c objects js p s s' G ->
  NoDup (map h_obj G) /\ NoDup (map h_det G) /\ incl (map h_obj G) objects /\ incl (map h_det G) js /\
  heap_age (s_heap s) (s_heap s') /\ s_tracked s' = remove_all (map h_det G) (s_tracked s) /\ incl (map h_det G) (s_tracked s) /\
  s_icount s' = s_icount s /\ s_count s' = s_count s /\ s_gcount s' = s_gcount s /\
  (forall i j dist, In (i, j, dist) G -> exists om, upto_min (s_store s i) om /\ merge_rel (s_store s j) om (s_store s' i)) /\
  (forall i, ~ In i (map h_obj G) -> upto_min (s_store s i) (s_store s' i)) /\
  (forall i, ~ In i objects -> s_store s' i = s_store s i) /\
  (forall i j dist, In (i, j, dist) G -> dlt dist (tc_reid_threshold c) /\ obj_label s j = obj_label s i /\
     exists f d, tc_reid_distance c = Some f /\ f (VObj (view_obj s j)) (view_obj s i) = Ret d /\ dist = tc_rnd c d).
Proof.
  intros Hno Hnj Hdis Htr [(_ & -> & ->)|(f & M & pairs & sa & Hreid & [Pm Pr Pn Pf Pmin] & -> & Hm)].
  { split; [constructor|]. split; [constructor|]. split; [intros ? []|]. split; [intros ? []|].
    split; [apply heap_age_refl|]. split; [unfold remove_all; cbn; rewrite filter_true; auto|]. split; [intros ? []|].
    do 3 (split; [reflexivity|]). split; [intros ? ? ? []|]. split; [intros; apply upto_min_refl|].
    split; [auto|intros ? ? ? []]. }
  destruct (final_facts _ _ _ _ _ Pf) as (F1 & F2 & F3 & F4). rewrite map_length in F3.
  assert (HndO : NoDup (map h_obj (map (mk_hit M objects js) pairs))) by (rewrite mk_hit_obj; apply NoDup_map_nth; auto).
  assert (HndJ : NoDup (map h_det (map (mk_hit M objects js) pairs))) by (rewrite mk_hit_det; apply NoDup_map_nth; auto).
  assert (IO : incl (map h_obj (map (mk_hit M objects js) pairs)) objects).
  { rewrite mk_hit_obj. intros x Hx. apply in_map_iff in Hx as (k & <- & Hk). apply nth_In. auto. }
  assert (IJ : incl (map h_det (map (mk_hit M objects js) pairs)) js).
  { rewrite mk_hit_det. intros x Hx. apply in_map_iff in Hx as (k & <- & Hk). apply nth_In. auto. }
  destruct Pmin as [m1 m2 m3 m4 m5 m6 m7].
  pose proof (merges_effect _ _ _ Hm HndO ltac:(rewrite m4; auto)) as [A B C D E F G' H'].
  { intros i Hi Hj. apply (Hdis i); auto. }
  rewrite m1 in A. rewrite m4 in D, E.
  do 4 (split; [assumption|]). split; [exact A|]. split; [exact D|]. split; [exact E|].
  do 3 (split; [congruence|]). split; [|split; [|split]].
  - intros i j dist Hin. exists (s_store sa i). split; [apply m2|].
    rewrite <- (m3 j); [eapply B; eauto|]. intros X. apply (Hdis j X). apply IJ. apply in_map_iff. exists (i, j, dist); auto.
  - intros i Hi. rewrite C by auto. apply m2.
  - intros i Hi. rewrite C; [apply m3; auto|]. intros X. apply Hi. auto.
  - intros i j dist Hin. destruct Pf as (Q1 & Q2 & Q3 & Q4).
    destruct (mk_hit_in _ _ _ _ _ _ _ _ _ Q2 (map_length _ _) eq_refl Hin) as (ci & oi & K1 & K2 & K3 & ->).
    split; [apply Q3; auto|].
    assert (PH : phase (tc_rnd c) (ScalarDistance f) (tc_reid_threshold c) objects (map CObj js) s M pairs sa).
    { constructor; auto; [exact (conj Q1 (conj Q2 (conj Q3 Q4)))|constructor; auto]. }
    assert (K4 : nth_error (map (@CObj) js) ci = Some (CObj j)) by (rewrite nth_error_map, K2; reflexivity).
    split; [exact (phase_labels _ _ _ _ _ _ _ _ _ PH _ _ _ _ K1 K4 K3)|].
    destruct (phase_dist _ _ _ _ _ _ _ _ _ PH _ _ _ _ K1 K4 K3) as (d & D1 & D2). exists f, d. auto.
Qed.

(* ---- partition of the objects ---- *)
Lemma kept_tracked c (s : st) i : In i (kept c s) -> In i (s_tracked s).
Proof. apply filter_incl. Qed.
Lemma alive_kept c (s : st) i : In i (alive c s) -> In i (kept c s).
Proof. apply filter_incl. Qed.
Lemma dead_kept c (s : st) i : In i (dead c s) -> In i (kept c s).
Proof. apply filter_incl. Qed.
Lemma alive_not_dead c (s : st) i : In i (alive c s) -> In i (dead c s) -> False.
Proof. unfold alive, dead. rewrite !filter_In, negb_true_iff. intros [_ A] [_ B]. congruence. Qed.
Lemma inits_alive c (s : st) i : In i (inits c s) -> In i (alive c s).
Proof. apply filter_incl. Qed.
Lemma uninits_alive c (s : st) i : In i (uninits c s) -> In i (alive c s).
Proof. apply filter_incl. Qed.
Lemma inits_not_uninits c (s : st) i : In i (inits c s) -> In i (uninits c s) -> False.
Proof. unfold inits, uninits. rewrite !filter_In, negb_true_iff. intros [_ A] [_ B]. congruence. Qed.

Lemma step_initializing ct (o : tobj) : o_initializing (obj_update_ct ct (tracker_step o)) = o_initializing o.
Proof. destruct ct; reflexivity. Qed.
Lemma upto_min_initializing (o o' : tobj) : upto_min o o' -> o_initializing o' = o_initializing o.
Proof. intros [m ->]. reflexivity. Qed.

Lemma NoDup_app_intro {A} (l1 l2 : list A) : NoDup l1 -> NoDup l2 -> (forall x, In x l1 -> ~ In x l2) -> NoDup (l1 ++ l2).
Proof.
  induction l1 as [|a l1 IH]; intros H1 H2 H; cbn; auto. inversion H1; subst. constructor.
  - rewrite in_app_iff. intros [C|C]; [auto|]. apply (H a); [left; auto|auto].
  - apply IH; auto. intros x Hx. apply H. right; auto.
Qed.

Lemma NoDup_app_disj {A} (l1 l2 : list A) x : NoDup (l1 ++ l2) -> In x l1 -> In x l2 -> False.
Proof.
  induction l1 as [|a l1 IH]; cbn; [tauto|]. intros Hn [->|Hx] Hy; inversion Hn as [|? ? X Y]; subst; auto.
  apply X. apply in_app_iff; auto.
Qed.

Lemma NoDup_app_r {A} (l1 l2 : list A) : NoDup (l1 ++ l2) -> NoDup l2.
Proof. induction l1; cbn; auto. inversion 1; auto. Qed.

Theorem update_effect c detections p ct (s s' : st) out :
  rnd_ok (tc_rnd c) -> NoDup (s_tracked s) ->
  update c detections p ct s = (s', Ret out) ->
  exists s0 s1 s2 s3 H1 H2 G rest1 news un1,
    effect c (dets_of detections) p ct s s0 s1 s2 s3 s' H1 H2 G rest1 news un1 /\ out = get_active_objects s' /\
    s0 = snd (begin_update c (dets_of detections) ct s).
Proof.
  intros Hr Hnd E.
  assert (Hb : exists al de s0, begin_update c (dets_of detections) ct s = (al, de, s0) /\
      associate c al de (dets_of detections) p ct s0 = (s', Ret out)).
  { unfold update in E. destruct ct as [T|]; destruct detections as [l|]; try discriminate; cbn;
    destruct (begin_update c _ _ s) as [[al de] s0]; eauto. }
  clear E. destruct Hb as (al & de & s0 & Eb & Ea).
  assert (Es0 : s0 = snd (begin_update c (dets_of detections) ct s)) by (rewrite Eb; reflexivity).
  apply begin_update_effect in Eb as (-> & -> & Hst); auto.
  unfold associate in Ea.
  (* phase 1 *)
  assert (E1 : filter (fun i => negb (o_initializing (s_store s0 i))) (alive c s) = inits c s).
  { apply filter_ext_in. intros i Hi. rewrite (sp_step _ _ _ _ _ Hst) by (apply alive_kept; auto).
    rewrite step_initializing. reflexivity. }
  rewrite E1 in Ea.
  destruct (update_objects_in_place (tc_rnd c) (tc_distance c) (tc_threshold c) (inits c s) _ p s0)
    as [s1 [[[uc1 mo1] uo1]|e]] eqn:U1; [|discriminate].
  apply (uip_dets laws) in U1 as (M1 & P1 & sa1 & Hp1 & Hh1 & -> & -> & ->); auto.
  set (rest1 := not_in_idxs (map fst P1) 0 (dets_of detections)) in *.
  set (un1 := not_in_idxs (map snd P1) 0 (inits c s)) in *.
  set (H1 := map (mk_hit M1 (inits c s) (dets_of detections)) P1) in *.
  assert (PH1 : phase_hits c (inits c s) (dets_of detections) p s0 s1 H1 rest1 un1).
  { constructor. exists M1, P1, sa1. auto. }
  assert (Nk : NoDup (kept c s)) by (apply NoDup_filter; auto).
  assert (Na : NoDup (alive c s)) by (apply NoDup_filter; auto).
  assert (Ni : NoDup (inits c s)) by (apply NoDup_filter; auto).
  destruct (phase_hits_facts _ _ _ _ _ _ _ _ _ Ni PH1) as (A1 & A2 & A3 & A4 & A5 & A6 & A7 & A8 & A9 & A10).
  (* phase 2 *)
  assert (E2 : filter (fun i => o_initializing (s_store s1 i)) (alive c s) = uninits c s).
  { apply filter_ext_in. intros i Hi. 
    assert (K : s_store s0 i = obj_update_ct ct (tracker_step (s_store s i))).
    { apply (sp_step _ _ _ _ _ Hst). apply alive_kept; auto. }
    assert (K' : o_initializing (s_store s0 i) = o_initializing (s_store s i)) by (rewrite K; apply step_initializing).
    destruct (in_dec Nat.eq_dec i (inits c s)) as [Hin|Hout].
    - assert (Ei : o_initializing (s_store s i) = false).
      { unfold inits in Hin. apply filter_In in Hin as [_ X]. apply negb_true_iff in X. auto. }
      rewrite Ei. destruct (in_dec Nat.eq_dec i (map h_obj H1)) as [Hh|Hh].
      + apply in_map_iff in Hh as ([[i' r] d] & Eq & Hh). cbn in Eq. subst i'.
        destruct (A7 _ _ _ Hh) as (om & Hum & o1 & Hr1 & ->). cbn. rewrite (hr_init _ _ _ _ _ Hr1).
        rewrite (upto_min_initializing _ _ Hum), K', Ei. reflexivity.
      + rewrite (upto_min_initializing _ _ (A8 i Hh)), K'. auto.
    - rewrite (A9 i Hout). auto. }
  rewrite E2 in Ea.
  destruct (update_objects_in_place (tc_rnd c) (tc_distance c) (tc_threshold c) (uninits c s) _ p s1)
    as [s2 [[[uc2 mo2] uo2]|e]] eqn:U2; [|discriminate].
  apply (uip_dets laws) in U2 as (M2 & P2 & sa2 & Hp2 & Hh2 & -> & -> & ->); auto.
  set (news := not_in_idxs (map fst P2) 0 rest1) in *.
  set (H2 := map (mk_hit M2 (uninits c s) rest1) P2) in *.
  assert (PH2 : phase_hits c (uninits c s) rest1 p s1 s2 H2 news (not_in_idxs (map snd P2) 0 (uninits c s))).
  { constructor. exists M2, P2, sa2. auto. }
  replace (map (fun q => nth (snd q) (uninits c s) 0) P2) with (map h_obj H2) in Ea
    by (subst H2; rewrite mk_hit_obj, map_map; reflexivity).
  (* phase 3 *)
  destruct (reid_phase c (un1 ++ dead c s) (map h_obj H2) p s2) as [s3 [u3|e]] eqn:U3; [|discriminate].
  assert (PM : exists G, phase_merges c (un1 ++ dead c s) (map h_obj H2) p s2 s3 G).
  { unfold reid_phase in U3. destruct (tc_reid_distance c) as [f|] eqn:Ef.
    - destruct (update_objects_in_place _ _ _ _ _ _ _) as [s3' [o3|e]] eqn:U3'; [|discriminate].
      injection U3 as -> _. apply (uip_objs laws) in U3' as (M3 & P3 & sa3 & Hp3 & Hm3); auto.
      eexists. right. exists f, M3, P3, sa3. eauto.
    - injection U3 as -> _. exists []. left. auto. }
  destruct PM as [G PM].
  destruct (create_objects c (map CDet news) p ct s3) as [s4 [u4|e]] eqn:U4; [|discriminate].
  injection Ea as -> <-. pose proof U4 as U4'. apply create_objects_ret in U4.
  exists s0, s1, s2, s3, H1, H2, G, rest1, news, un1. split; [|split; [reflexivity|exact Es0]].
  constructor; eauto.
Qed.

(** Summary by object. *)
Record summary (c : tconf FO) (dets : list nat) (p : Z) (ct : option (coord_transformation N)) (s s' : st)
    (H1 H2 G : list hitrec) (news : list nat) : Prop := {
  su_perm : Permutation dets (map h_det H1 ++ map h_det H2 ++ news);
  su_nodup : NoDup (map h_obj H1 ++ map h_obj H2 ++ map h_obj G);
  su_nodup_cand : NoDup (map h_det G);
  su_obj1 : incl (map h_obj H1) (inits c s);
  su_obj2 : incl (map h_obj H2) (uninits c s);
  su_target : forall i, In i (map h_obj G) -> In i (inits c s) \/ In i (dead c s);
  su_cand : incl (map h_det G) (map h_obj H2);
  su_noreid : tc_reid_distance c = None -> G = [];
  su_hit : forall i r dist, In (i, r, dist) (H1 ++ H2) -> exists om,
     upto_min (obj_update_ct ct (tracker_step (s_store s i))) om /\
     hit_obj_rel (ct_heap ct dets s) p r dist om (s_store s' i);
  su_merge : forall i j dist, In (i, j, dist) G -> exists om,
     upto_min (obj_update_ct ct (tracker_step (s_store s i))) om /\
     merge_rel (s_store s' j) om (s_store s' i);
  su_missed : forall i, In i (kept c s) -> ~ In i (map h_obj H1 ++ map h_obj H2 ++ map h_obj G) ->
     upto_min (obj_update_ct ct (tracker_step (s_store s i))) (s_store s' i);
  su_gone : forall i, valid s i -> ~ In i (kept c s) -> s_store s' i = s_store s i;
  su_new : forall k, k < List.length news ->
     new_rel c (ct_heap ct dets s) (nth k news 0) p ct (S (s_icount s) + k) (s_store s' (S (s_icount s) + k));
  su_tracked : s_tracked s' = remove_all (map h_det G) (kept c s) ++ seq (S (s_icount s)) (List.length news);
  su_icount : s_icount s' = s_icount s + List.length news;
  su_heap : heap_age (ct_heap ct dets s) (s_heap s');
  su_below : forall i r dist, In (i, r, dist) (H1 ++ H2) -> dlt dist (tc_threshold c);
  su_label : forall f i r dist, tc_distance c = ScalarDistance f -> In (i, r, dist) (H1 ++ H2) ->
     d_label (s_heap s r) = oc_label (o_conf (s_store s i));
  su_belowG : forall i j dist, In (i, j, dist) G -> dlt dist (tc_reid_threshold c);
  su_labelG : forall i j dist, In (i, j, dist) G -> oc_label (o_conf (s_store s j)) = oc_label (o_conf (s_store s i));
  su_dist : forall f i r dist, tc_distance c = ScalarDistance f -> In (i, r, dist) (H1 ++ H2) ->
     exists vd vo d, f (VDet vd) vo = Ret d /\ dist = tc_rnd c d /\ same_age (ct_heap ct dets s r) vd /\
       upto_min (obj_update_ct ct (tracker_step (s_store s i))) (v_obj vo);
  su_distG : forall i j dist, In (i, j, dist) G ->
     exists f vj vo d, tc_reid_distance c = Some f /\ f (VObj vj) vo = Ret d /\ dist = tc_rnd c d /\
       v_obj vj = s_store s' j /\ upto_min (obj_update_ct ct (tracker_step (s_store s i))) (v_obj vo)
}.

Lemma update_dets_ct_label T ds : forall (s : st) r, d_label (s_heap (update_dets_ct T ds s) r) = d_label (s_heap s r).
Proof.
  induction ds as [|d ds IH]; intros s r; cbn; auto. rewrite IH. cbn.
  destruct (Nat.eq_dec r d) as [->|H]; [rewrite upd_same|rewrite upd_other by auto]; reflexivity.
Qed.
Lemma ct_heap_label ct ds (s : st) r : d_label (ct_heap ct ds s r) = d_label (s_heap s r).
Proof. destruct ct; [apply update_dets_ct_label|reflexivity]. Qed.

Lemma upto_min_conf (o o' : tobj) : upto_min o o' -> o_conf o' = o_conf o.
Proof. intros [m ->]. reflexivity. Qed.
Lemma step_conf ct (o : tobj) : o_conf (obj_update_ct ct (tracker_step o)) = o_conf o.
Proof. destruct ct; reflexivity. Qed.

Lemma hit_obj_rel_same_age h h' p r dist (o o' : tobj) : heap_age h h' ->
  hit_obj_rel h p r dist o o' -> hit_obj_rel h' p r dist o o'.
Proof. intros Ha (o1 & A & B). exists o1. split; auto. eapply hit_rel_same_age; eauto. Qed.

Lemma effect_summary c dets p ct (s s0 s1 s2 s3 s' : st) H1 H2 G rest1 news un1 :
  TInv s -> effect c dets p ct s s0 s1 s2 s3 s' H1 H2 G rest1 news un1 ->
  summary c dets p ct s s' H1 H2 G news.
Proof.
  intros T [[sh ss so st_ si sc sg] PH1 (un2 & PH2) PM CF].
  assert (Hnd : NoDup (s_tracked s)) by apply (ti_nodup _ T).
  assert (Hval : forall i, In i (kept c s) -> valid s i).
  { intros i Hi. apply kept_tracked in Hi. pose proof (ti_valid _ T) as V. rewrite Forall_forall in V. auto. }
  assert (Nk : NoDup (kept c s)) by (apply NoDup_filter; auto).
  assert (Na : NoDup (alive c s)) by (apply NoDup_filter; auto).
  assert (Nd : NoDup (dead c s)) by (apply NoDup_filter; auto).
  assert (Ni : NoDup (inits c s)) by (apply NoDup_filter; auto).
  assert (Nu : NoDup (uninits c s)) by (apply NoDup_filter; auto).
  destruct (phase_hits_facts _ _ _ _ _ _ _ _ _ Ni PH1) as (A1 & A2 & A3 & A4 & A5 & A6 & A7 & A8 & A9 & A10).
  destruct (phase_hits_facts _ _ _ _ _ _ _ _ _ Nu PH2) as (B1 & B2 & B3 & B4 & B5 & B6 & B7 & B8 & B9 & B10).
  assert (IO1 : incl (map h_obj H1) (inits c s)).
  { intros x Hx. eapply Permutation_in; [symmetry; exact A3|]. apply in_app_iff; auto. }
  assert (IU1 : incl un1 (inits c s)).
  { intros x Hx. eapply Permutation_in; [symmetry; exact A3|]. apply in_app_iff; auto. }
  assert (NU1 : NoDup (map h_obj H1 ++ un1)) by (eapply Permutation_NoDup; eauto).
  assert (Dis1 : forall x, In x (map h_obj H1) -> ~ In x un1).
  { intros x Hx Hy. eapply NoDup_app_disj; eauto. }
  assert (NDun1 : NoDup un1) by (eapply NoDup_app_r; eauto).
  assert (IO2 : incl (map h_obj H2) (uninits c s)).
  { intros x Hx. eapply Permutation_in; [symmetry; exact B3|]. apply in_app_iff; auto. }
  assert (Nob : NoDup (un1 ++ dead c s)).
  { apply NoDup_app_intro; auto. intros x Hx Hd. eapply alive_not_dead; [|exact Hd]. apply inits_alive. auto. }
  assert (Dis3 : forall i, In i (un1 ++ dead c s) -> ~ In i (map h_obj H2)).
  { intros i Hi Hj. apply IO2 in Hj. apply in_app_iff in Hi as [Hi|Hi].
    - eapply inits_not_uninits; [apply IU1; exact Hi|exact Hj].
    - eapply alive_not_dead; [apply uninits_alive; exact Hj|exact Hi]. }
  assert (Htr2 : s_tracked s2 = kept c s) by congruence.
  destruct (phase_merges_facts _ _ _ _ _ _ _ Nob B1 Dis3 ltac:(rewrite Htr2; auto) PM)
    as (C1 & C2 & C3 & C4 & C5 & C6 & C7 & C8 & C9 & C10 & C11 & C12 & C13 & C14).
  destruct CF as [D1 D2 D3 D4 D5].
  assert (Hic3 : s_icount s3 = s_icount s) by congruence.
  rewrite Hic3 in *.
  assert (Dis2 : forall x, In x (map h_obj H1) -> ~ In x (map h_obj H2)).
  { intros x Hx Hy. eapply inits_not_uninits; eauto. }
  assert (DisG1 : forall x, In x (map h_obj H1) -> ~ In x (map h_obj G)).
  { intros x Hx Hy. apply C3 in Hy. apply in_app_iff in Hy as [Hy|Hy].
    - eapply Dis1; eauto.
    - eapply alive_not_dead; [apply inits_alive; apply IO1; exact Hx|exact Hy]. }
  assert (DisG2 : forall x, In x (map h_obj H2) -> ~ In x (map h_obj G)).
  { intros x Hx Hy. apply C3 in Hy. eapply Dis3; eauto. }
  assert (Hold : forall i, valid s i -> s_store s' i = s_store s3 i) by (intros i [_ Hi]; apply D3; auto).
  assert (HA23 : heap_age (s_heap s0) (s_heap s3)).
  { eapply heap_age_trans; [exact A4|]. eapply heap_age_trans; eauto. }
  rewrite sh in *.
  constructor; auto.
  - rewrite A2 at 1. apply Permutation_app_head. exact B2.
  - apply NoDup_app_intro; auto.
    + apply NoDup_app_intro; auto.
    + intros x Hx Hy. apply in_app_iff in Hy as [Hy|Hy]; [eapply Dis2|eapply DisG1]; eauto.
  - intros i Hi. apply C3 in Hi. apply in_app_iff in Hi as [Hi|Hi]; auto.
  - intros E. destruct PM as [(_ & -> & _)|(f & M & pairs & sa & E' & _)]; [auto|congruence].
  - intros i r dist Hin. apply in_app_iff in Hin as [Hin|Hin].
    + assert (Hi : In i (map h_obj H1)) by (apply in_map_iff; exists (i, r, dist); auto).
      assert (Hk : In i (kept c s)) by (apply alive_kept, inits_alive, IO1; auto).
      destruct (A7 _ _ _ Hin) as (om & Hum & Hr). exists om. rewrite <- ss by auto. split; auto.
      rewrite Hold by auto. rewrite C13.
      * rewrite B9; auto. intros X. eapply inits_not_uninits; eauto.
      * intros X. apply in_app_iff in X as [X|X]; [eapply Dis1; eauto|].
        eapply alive_not_dead; [apply inits_alive, IO1; eauto|exact X].
    + assert (Hi : In i (map h_obj H2)) by (apply in_map_iff; exists (i, r, dist); auto).
      assert (Hk : In i (kept c s)) by (apply alive_kept, uninits_alive, IO2; auto).
      destruct (B7 _ _ _ Hin) as (om & Hum & Hr). exists om. rewrite <- ss by auto.
      rewrite A9 in Hum by (intros X; eapply inits_not_uninits; eauto). split; auto.
      rewrite Hold by auto. rewrite C13 by (intros X; eapply Dis3; eauto).
      eapply hit_obj_rel_same_age; [|exact Hr]. apply heap_age_sym. auto.
  - intros i j dist Hin.
    assert (Hi : In i (map h_obj G)) by (apply in_map_iff; exists (i, j, dist); auto).
    assert (Hj : In j (map h_det G)) by (apply in_map_iff; exists (i, j, dist); auto).
    assert (Hjk : In j (kept c s)) by (apply alive_kept, uninits_alive, IO2, C4; auto).
    assert (Hik : In i (kept c s)).
    { apply C3 in Hi. apply in_app_iff in Hi as [X|X]; [apply alive_kept, inits_alive, IU1; auto|apply dead_kept; auto]. }
    destruct (C11 _ _ _ Hin) as (om & Hum & Hm). exists om. rewrite <- ss by auto.
    split.
    + eapply upto_min_trans; [|exact Hum]. eapply upto_min_trans; [apply A8|apply B8].
      * intros X. eapply DisG1; eauto.
      * intros X. eapply DisG2; eauto.
    + rewrite (Hold i), (Hold j) by auto. rewrite (C13 j); auto. intros X. eapply Dis3; [exact X|]. auto.
  - intros i Hk Hn. rewrite !in_app_iff in Hn. rewrite <- ss by auto. rewrite Hold by auto.
    eapply upto_min_trans; [apply A8; tauto|]. eapply upto_min_trans; [apply B8; tauto|]. apply C12; tauto.
  - intros i Hv Hn. rewrite Hold by auto. rewrite C13, B9, A9; auto.
    + intros X. apply Hn. apply alive_kept, inits_alive; auto.
    + intros X. apply Hn. apply alive_kept, uninits_alive; auto.
    + intros X. apply Hn. apply in_app_iff in X as [X|X]; [apply alive_kept, inits_alive, IU1; auto|apply dead_kept; auto].
  - intros k Hk. eapply new_rel_same_age; [|apply D2; auto]. apply same_age_sym. auto.
  - rewrite D4, C6, Htr2. reflexivity.
  - eapply heap_age_trans; [exact HA23|exact D1].
  - intros i r dist Hin. apply in_app_iff in Hin as [Hin|Hin]; [eapply A10|eapply B10]; eauto.
  - intros f i r dist Ef Hin. apply in_app_iff in Hin as [Hin|Hin].
    + destruct (A10 _ _ _ Hin) as [_ X]. destruct (X f Ef) as [X' _]. clear X. rename X' into X. rewrite ct_heap_label in X. rewrite X.
      unfold obj_label. rewrite ss; [rewrite step_conf; auto|].
      apply alive_kept, inits_alive, IO1. apply in_map_iff. exists (i, r, dist); auto.
    + assert (Hu : In i (uninits c s)) by (apply IO2; apply in_map_iff; exists (i, r, dist); auto).
      destruct (B10 _ _ _ Hin) as [_ X]. destruct (X f Ef) as [X' _]. clear X. rename X' into X.
      destruct (A4 r) as (_ & _ & Y & _). rewrite <- Y, ct_heap_label in X. rewrite X.
      unfold obj_label. rewrite A9 by (intros Z; eapply inits_not_uninits; eauto).
      rewrite ss; [rewrite step_conf; auto|]. apply alive_kept, uninits_alive; auto.
  - intros i j dist Hin. eapply C14; eauto.
  - intros i j dist Hin. destruct (C14 _ _ _ Hin) as (_ & X & _).
    assert (Hcf : forall k, In k (kept c s) -> o_conf (s_store s2 k) = o_conf (s_store s k)).
    { intros k Hk. rewrite <- (step_conf ct (s_store s k)), <- ss by auto.
      assert (Y : o_conf (s_store s1 k) = o_conf (s_store s0 k)).
      { destruct (in_dec Nat.eq_dec k (map h_obj H1)) as [Hh|Hh]; [|apply upto_min_conf, A8; auto].
        apply in_map_iff in Hh as ([[k' r] d] & Eq & Hh). cbn in Eq. subst k'.
        destruct (A7 _ _ _ Hh) as (om & Hum & o1 & Hr1 & ->). cbn. rewrite (hr_conf _ _ _ _ _ Hr1). apply upto_min_conf; auto. }
      rewrite <- Y. destruct (in_dec Nat.eq_dec k (map h_obj H2)) as [Hh|Hh]; [|apply upto_min_conf, B8; auto].
      apply in_map_iff in Hh as ([[k' r] d] & Eq & Hh). cbn in Eq. subst k'.
      destruct (B7 _ _ _ Hh) as (om & Hum & o1 & Hr1 & ->). cbn. rewrite (hr_conf _ _ _ _ _ Hr1). apply upto_min_conf; auto. }
    unfold obj_label in X. rewrite !Hcf in X; auto.
    + assert (Hi : In i (map h_obj G)) by (apply in_map_iff; exists (i, j, dist); auto).
      apply C3 in Hi. apply in_app_iff in Hi as [Y|Y]; [apply alive_kept, inits_alive, IU1; auto|apply dead_kept; auto].
    + assert (Hj : In j (map h_det G)) by (apply in_map_iff; exists (i, j, dist); auto).
      apply alive_kept, uninits_alive, IO2, C4; auto.
  - intros f i r dist Ef Hin. apply in_app_iff in Hin as [Hin|Hin].
    + destruct (A10 _ _ _ Hin) as [_ X]. destruct (X f Ef) as [_ (d & Y1 & Y2)].
      exists (ct_heap ct dets s r), (view_obj s0 i), d. repeat split; auto. cbn.
      rewrite ss; [apply upto_min_refl|]. apply alive_kept, inits_alive, IO1. apply in_map_iff. exists (i, r, dist); auto.
    + assert (Hu : In i (uninits c s)) by (apply IO2; apply in_map_iff; exists (i, r, dist); auto).
      destruct (B10 _ _ _ Hin) as [_ X]. destruct (X f Ef) as [_ (d & Y1 & Y2)].
      exists (s_heap s1 r), (view_obj s1 i), d. do 2 (split; [auto|]). split; [apply A4|]. cbn.
      rewrite A9 by (intros Z; eapply inits_not_uninits; eauto).
      rewrite ss; [apply upto_min_refl|]. apply alive_kept, uninits_alive; auto.
  - intros i j dist Hin. destruct (C14 _ _ _ Hin) as (_ & _ & f & d & Y1 & Y2 & Y3).
    assert (Hi : In i (map h_obj G)) by (apply in_map_iff; exists (i, j, dist); auto).
    assert (Hj : In j (map h_det G)) by (apply in_map_iff; exists (i, j, dist); auto).
    assert (Hjk : In j (kept c s)) by (apply alive_kept, uninits_alive, IO2, C4; auto).
    assert (Hik : In i (kept c s)).
    { apply C3 in Hi. apply in_app_iff in Hi as [X|X]; [apply alive_kept, inits_alive, IU1; auto|apply dead_kept; auto]. }
    exists f, (view_obj s2 j), (view_obj s2 i), d. do 3 (split; [auto|]). cbn. split.
    + rewrite (Hold j) by auto. rewrite (C13 j); auto. intros X. eapply Dis3; [exact X|]. auto.
    + rewrite <- ss by auto. eapply upto_min_trans; [apply A8|apply B8].
      * intros X. eapply DisG1; eauto.
      * intros X. eapply DisG2; eauto.
Qed.

Theorem update_summary c detections p ct (s s' : st) out :
  rnd_ok (tc_rnd c) -> TInv s -> update c detections p ct s = (s', Ret out) ->
  exists H1 H2 G news, summary c (dets_of detections) p ct s s' H1 H2 G news /\ out = get_active_objects s'.
Proof.
  intros Hr T E. destruct (update_effect _ _ _ _ _ _ _ Hr (ti_nodup _ T) E)
    as (s0 & s1 & s2 & s3 & H1 & H2 & G & rest1 & news & un1 & He & Ho & _).
  exists H1, H2, G, news. split; auto. eapply effect_summary; eauto.
Qed.
End CallEffect.

(** Whole videos whose detections arrive in a different order.  Used for C92. *)
From Coq Require Import ZArith Bool Arith String List Lia Permutation.
From Verif Require Import Model.Num Model.Base Model.Matching Model.Filter Model.Tracker Spec.MatchingSpec Spec.CallSpec Spec.ExampleVideo Spec.LabelSpec
  Spec.OrderSpec Proofs.NumLaws Proofs.MatchingProofs Proofs.TrackerFrame Proofs.Identity Proofs.Effect Proofs.CallProps Proofs.LabelSim Proofs.LabelPhase Proofs.LabelMain
  Proofs.OrderLocal Proofs.OrderSeq Proofs.OrderTable Proofs.OrderMatch Proofs.OrderPhase.
Import ListNotations.

Section Main.
Context {N : Num} (laws : NumLaws N) {FO : filter_ops N}.
Notation st := (st FO).

(** ** The beginning of a call *)
Lemma dets_ct_heap T dets : forall (s : st), NoDup dets -> forall r,
  s_heap (update_dets_ct T dets s) r = if in_dec Nat.eq_dec r dets then det_update_ct T (s_heap s r) else s_heap s r.
Proof.
  assert (Md : forall q r (s : st), s_heap (mod_det q (det_update_ct T) s) r = if Nat.eqb r q then det_update_ct T (s_heap s r) else s_heap s r).
  { intros q r s. cbn. unfold upd. destruct (Nat.eqb_spec r q) as [->|]; reflexivity. }
  induction dets as [|q dets IH]; intros s Nd r; [reflexivity|]. inversion Nd as [|? ? Hn Nd']; subst. cbn [update_dets_ct]. rewrite (IH _ Nd'), Md.
  destruct (in_dec Nat.eq_dec r dets) as [H|H]; destruct (in_dec Nat.eq_dec r (q :: dets)) as [H'|H']; destruct (Nat.eqb_spec r q) as [->|Hne]; auto.
  - contradiction. - elim H'. right. exact H. - elim H'. right. exact H.
  - destruct H' as [->|H']; contradiction. - elim H'. left. reflexivity.
Qed.
Lemma ct_heap_same ct dets dets' (s t : st) : NoDup dets -> Permutation dets dets' -> (forall r, s_heap s r = s_heap t r) ->
  forall r, ct_heap ct dets s r = ct_heap ct dets' t r.
Proof.
  intros Nd P H r. destruct ct as [T|]; cbn; [|apply H]. rewrite !dets_ct_heap; [|eapply Permutation_NoDup; eauto|exact Nd]. rewrite H.
  destruct (in_dec Nat.eq_dec r dets) as [X|X]; destruct (in_dec Nat.eq_dec r dets') as [Y|Y]; auto.
  - elim Y. eapply Permutation_in; eauto. - elim X. eapply Permutation_in; [apply Permutation_sym; exact P|exact Y].
Qed.

Lemma same_pred L (s t : st) (f : tobj FO -> bool) : same_world L s t -> (forall o o', anonymous o = anonymous o' -> f o = f o') ->
  forall i j, In (i, j) L -> f (s_store s i) = f (s_store t j).
Proof. intros W H i j Hij. apply H, (sw_obj _ _ _ W), Hij. Qed.

Lemma mt_kept c L (s t : st) : osim L s t -> mt L (kept c s) (kept c t).
Proof.
  intros S. unfold kept. apply mt_filter; [apply S|]. destruct (tc_reid_max c); apply same_pred; try apply S; [apply reid_blind|apply hit_blind].
Qed.

Lemma begin_reordered c L dets dets' ct (s t : st) al de s0 al' de' t0 D : osim L s t -> NoDup dets -> Permutation dets dets' -> apart s D ->
  begin_update c dets ct s = (al, de, s0) -> begin_update c dets' ct t = (al', de', t0) ->
  osim L s0 t0 /\ apart s0 D /\ mt L al al' /\ mt L de de' /\ incl al (s_tracked s0) /\ incl de (s_tracked s0) /\ (forall i, In i al -> ~ In i de).
Proof.
  intros S Nd Pd Ap E E'. apply begin_update_effect in E as (-> & -> & B); [|apply S]. apply begin_update_effect in E' as (-> & -> & B'); [|apply (os_trk _ _ _ S)].
  pose proof (mt_kept c L s t S) as Mk.
  assert (Ik : incl (kept c s) (s_tracked s)) by (intros i Hi; unfold kept in Hi; apply filter_In in Hi; tauto).
  assert (An : forall i j, In (i, j) L -> anonymous (s_store s0 i) = anonymous (s_store t0 j)).
  { intros i j Hij. destruct (in_dec Nat.eq_dec i (kept c s)) as [Hi|Hi].
    - rewrite (sp_step _ _ _ _ _ B i Hi), (sp_step _ _ _ _ _ B' j); [|apply (mt_iff _ _ _ Mk i j Hij), Hi]. apply (plain_step ct). apply (os_world _ _ _ S), Hij.
    - rewrite (sp_other _ _ _ _ _ B i Hi), (sp_other _ _ _ _ _ B' j); [apply (os_world _ _ _ S), Hij|]. intros X. apply Hi. apply (mt_iff _ _ _ Mk i j Hij), X. }
  assert (Past : forall i, o_past (s_store s0 i) = o_past (s_store s i)).
  { intros i. destruct (in_dec Nat.eq_dec i (kept c s)) as [Hi|Hi]; [|rewrite (sp_other _ _ _ _ _ B i Hi); reflexivity].
    rewrite (sp_step _ _ _ _ _ B i Hi). apply (plain_step ct (s_store s i) (s_store s i) eq_refl). }
  split; [|split; [|split; [|split; [|split; [|split]]]]].
  - split.
    + split; [|exact An]. intros r. rewrite (sp_heap _ _ _ _ _ B), (sp_heap _ _ _ _ _ B'). apply ct_heap_same; auto. apply S.
    + apply S.
    + rewrite (sp_icount _ _ _ _ _ B). apply S.
    + rewrite (sp_icount _ _ _ _ _ B'). apply S.
    + rewrite (sp_tracked _ _ _ _ _ B), (sp_tracked _ _ _ _ _ B'). exact Mk.
  - unfold apart. rewrite (sp_tracked _ _ _ _ _ B). destruct Ap as [A1 A2]. split.
    + intros i i' r Hi Hi'. rewrite !Past. apply A1; auto.
    + intros i r Hi. rewrite Past. apply A2; auto.
  - unfold alive. apply mt_filter; [exact Mk|]. apply same_pred; [apply S|apply hit_blind].
  - unfold dead. apply mt_filter; [exact Mk|]. intros i j Hij. f_equal. revert i j Hij. apply same_pred; [apply S|apply hit_blind].
  - rewrite (sp_tracked _ _ _ _ _ B). intros i Hi. unfold alive in Hi. apply filter_In in Hi. tauto.
  - rewrite (sp_tracked _ _ _ _ _ B). intros i Hi. unfold dead in Hi. apply filter_In in Hi. tauto.
  - intros i Hi Hd. unfold alive in Hi. unfold dead in Hd. apply filter_In in Hi as [_ Hi], Hd as [_ Hd]. rewrite Hi in Hd. discriminate.
Qed.

(** ** New objects *)
Lemma creates_total c rs p ct : forall s : st, exists s', create_objects c (map CDet rs) p ct s = (s', Ret tt).
Proof. induction rs as [|r rs IH]; intros s; cbn; eauto. Qed.
Lemma create_heap c r p ct (s : st) q : s_heap (create_object c r p ct s) q = if Nat.eqb q r then d_set_age 0%Z (s_heap s q) else s_heap s q.
Proof.
  rewrite create_eq. destruct (p <=? tc_delay c)%Z; cbn; unfold upd; destruct (Nat.eqb_spec q r) as [->|]; reflexivity.
Qed.
Lemma creates_heap c rs p ct : forall (s s' : st) u, NoDup rs -> create_objects c (map CDet rs) p ct s = (s', Ret u) -> forall q,
  s_heap s' q = if in_dec Nat.eq_dec q rs then d_set_age 0%Z (s_heap s q) else s_heap s q.
Proof.
  induction rs as [|r rs IH]; intros s s' u Nd E q; cbn in E; [injection E as <- _; reflexivity|]. inversion Nd as [|? ? Hn Nd']; subst. rewrite (IH _ _ _ Nd' E q), create_heap.
  destruct (in_dec Nat.eq_dec q rs) as [H|H]; destruct (in_dec Nat.eq_dec q (r :: rs)) as [H'|H']; destruct (Nat.eqb_spec q r) as [->|Hne]; auto.
  all: try contradiction; try (elim H'; right; exact H); try (elim H'; left; reflexivity).
  destruct H' as [X|X]; [elim Hne; auto|contradiction].
Qed.

Lemma new_anonymous c h h' r p ct i j (o o' : tobj FO) : h r = h' r -> new_rel c h r p ct i o -> new_rel c h' r p ct j o' -> anonymous o = anonymous o'.
Proof.
  intros E [A1 A2 A3 A4 A5 A6 A7 A8 A9 A10 A11 A12 A13] [B1 B2 B3 B4 B5 B6 B7 B8 B9 B10 B11 B12 B13]. rewrite <- E in *. destruct o, o'. cbn in *. subst. reflexivity.
Qed.

Lemma mt_incl L L' l l' : oto L' -> incl L L' -> mt L l l' -> mt L' l l'.
Proof.
  intros HL' I M. split; try apply M.
  - intros i Hi. destruct (mt_l _ _ _ M i Hi) as [j Hj]. eauto.
  - intros j Hj. destruct (mt_r _ _ _ M j Hj) as [i Hi]. eauto.
  - intros i j Hij. split.
    + intros Hi. destruct (mt_l _ _ _ M i Hi) as [j' Hj]. replace j with j'; [apply (mt_iff _ _ _ M i j' Hj), Hi|]. apply (HL' i j' i j); auto.
    + intros Hj. destruct (mt_r _ _ _ M j Hj) as [i' Hi]. replace i with i'; [apply (mt_iff _ _ _ M i' j Hi), Hj|]. apply (HL' i' j i j); auto.
Qed.

Lemma creates_reordered c L rs rs' p ct D (s t s' : st) u : osim L s t -> apart s (rs ++ D) -> NoDup (rs ++ D) -> Permutation rs rs' ->
  create_objects c (map CDet rs) p ct s = (s', Ret u) ->
  exists L' t', create_objects c (map CDet rs') p ct t = (t', Ret tt) /\ incl L L' /\ osim L' s' t' /\ apart s' D.
Proof.
  intros S Ap Nd Pr E. destruct (creates_total c rs' p ct t) as [t' E']. pose proof (create_objects_ret _ _ _ _ _ _ _ E) as C. pose proof (create_objects_ret _ _ _ _ _ _ _ E') as C'.
  assert (Nr : NoDup rs) by (eapply nd_l; eauto). assert (Nr' : NoDup rs') by (eapply Permutation_NoDup; eauto).
  destruct (perm_arr eq rs rs' rs' Pr) as [f (A1 & A2 & A3)]; [clear; induction rs'; constructor; auto|]. destruct A2 as (F1 & F2 & F3).
  set (n := s_icount s) in *. set (m := s_icount t) in *. set (len := List.length rs') in *.
  set (New := map (fun a => (Datatypes.S n + f a, Datatypes.S m + a)) (seq 0 len)).
  assert (InN : forall i j, In (i, j) New <-> exists a, a < len /\ i = Datatypes.S n + f a /\ j = Datatypes.S m + a).
  { intros i j. unfold New. rewrite in_map_iff. split.
    - intros (a & X & Ha). injection X as <- <-. apply in_seq in Ha. exists a. repeat split; lia.
    - intros (a & Ha & -> & ->). exists a. split; [reflexivity|]. apply in_seq. lia. }
  assert (Old : forall i j, In (i, j) L -> i <= n /\ j <= m).
  { intros i j Hij. split; [apply (os_left _ _ _ S i); eauto|apply (os_right _ _ _ S j); eauto]. }
  set (L' := L ++ New).
  assert (HL' : oto L').
  { intros i j i' j' H H'. unfold L' in H, H'. apply in_app_iff in H as [H|H]; apply in_app_iff in H' as [H'|H'].
    - apply (os_oto _ _ _ S); auto.
    - destruct (Old _ _ H). apply InN in H' as (a & Ha & -> & ->). split; intros; lia.
    - destruct (Old _ _ H'). apply InN in H as (a & Ha & -> & ->). split; intros; lia.
    - apply InN in H as (a & Ha & -> & ->). apply InN in H' as (a' & Ha' & -> & ->). split; intros X; [assert (f a = f a') by lia; assert (a = a') by (apply F2; auto); lia|assert (a = a') by lia; subst; reflexivity]. }
  assert (IL : incl L L') by (intros x Hx; apply in_app_iff; left; exact Hx).
  exists L', t'. split; [exact E'|]. split; [exact IL|]. split.
  - split.
    + split.
      * intros q. rewrite (creates_heap _ _ _ _ _ _ _ Nr E q), (creates_heap _ _ _ _ _ _ _ Nr' E' q), (sw_heap _ _ _ (os_world _ _ _ S) q).
        destruct (in_dec Nat.eq_dec q rs) as [X|X]; destruct (in_dec Nat.eq_dec q rs') as [Y|Y]; auto.
        -- elim Y. eapply Permutation_in; eauto. -- elim X. eapply Permutation_in; [apply Permutation_sym; exact Pr|exact Y].
      * intros i j Hij. unfold L' in Hij. apply in_app_iff in Hij as [Hij|Hij].
        -- destruct (Old _ _ Hij). rewrite (cf_old _ _ _ _ _ _ C i), (cf_old _ _ _ _ _ _ C' j) by assumption. apply (os_world _ _ _ S), Hij.
        -- apply InN in Hij as (a & Ha & -> & ->). destruct (A3 a _ (nth_error_nth' rs' 0 Ha)) as (x & Ex & Eq). subst x.
           apply (nth_error_nth _ _ 0) in Ex. pose proof (cf_new _ _ _ _ _ _ C (f a) ltac:(rewrite A1; apply F1, Ha)) as N1. pose proof (cf_new _ _ _ _ _ _ C' a Ha) as N2.
           rewrite Ex in N1. refine (new_anonymous _ _ _ _ _ _ _ _ _ _ _ N1 N2). apply (os_world _ _ _ S).
    + exact HL'.
    + rewrite (cf_icount _ _ _ _ _ _ C). fold n. rewrite A1. fold len. intros i. split.
      * intros Hi. destruct (le_lt_dec i n) as [Hl|Hl].
        -- destruct (proj1 (os_left _ _ _ S i)) as [j Hj]; [fold n; lia|]. exists j. apply IL, Hj.
        -- destruct (F3 (i - Datatypes.S n)) as (a & Ha & Ea); [unfold len; lia|]. exists (Datatypes.S m + a). apply in_app_iff. right. apply InN. exists a. repeat split; auto. lia.
      * intros [j Hj]. apply in_app_iff in Hj as [Hj|Hj].
        -- assert (1 <= i <= n) by (apply (os_left _ _ _ S i); eauto). lia.
        -- apply InN in Hj as (a & Ha & -> & ->). specialize (F1 a Ha). unfold len. lia.
    + rewrite (cf_icount _ _ _ _ _ _ C'). fold m len. intros j. split.
      * intros Hj. destruct (le_lt_dec j m) as [Hl|Hl].
        -- destruct (proj1 (os_right _ _ _ S j)) as [i Hi]; [fold m; lia|]. exists i. apply IL, Hi.
        -- exists (Datatypes.S n + f (j - Datatypes.S m)). apply in_app_iff. right. apply InN. exists (j - Datatypes.S m). repeat split; lia.
      * intros [i Hi]. apply in_app_iff in Hi as [Hi|Hi].
        -- assert (1 <= j <= m) by (apply (os_right _ _ _ S j); eauto). lia.
        -- apply InN in Hi as (a & Ha & -> & ->). lia.
    + rewrite (cf_tracked _ _ _ _ _ _ C), (cf_tracked _ _ _ _ _ _ C'). fold n m. rewrite A1. fold len. apply mt_app.
      * apply (mt_incl L L'); auto. apply S.
      * split; try apply seq_NoDup.
        -- intros i Hi. apply in_seq in Hi. destruct (F3 (i - Datatypes.S n)) as (a & Ha & Ea); [unfold len in *; lia|]. exists (Datatypes.S m + a). apply in_app_iff. right. apply InN. exists a. repeat split; auto. lia.
        -- intros j Hj. apply in_seq in Hj. exists (Datatypes.S n + f (j - Datatypes.S m)). apply in_app_iff. right. apply InN. exists (j - Datatypes.S m). repeat split; lia.
        -- intros i j Hij. unfold L' in Hij. apply in_app_iff in Hij as [Hij|Hij].
           ++ destruct (Old _ _ Hij). rewrite !in_seq. split; intros; lia.
           ++ apply InN in Hij as (a & Ha & -> & ->). specialize (F1 a Ha). rewrite !in_seq. unfold len. split; intros; lia.
      * intros i Hi Hs. apply in_seq in Hs. destruct (mt_l _ _ _ (os_trk _ _ _ S) i Hi) as [j Hj]. destruct (Old _ _ Hj). lia.
  - assert (Kind : forall i, In i (s_tracked s') -> (In i (s_tracked s) /\ s_store s' i = s_store s i) \/ exists k, k < List.length rs /\ i = Datatypes.S n + k /\ incl (o_past (s_store s' i)) [nth k rs 0]).
    { intros i Hi. rewrite (cf_tracked _ _ _ _ _ _ C) in Hi. apply in_app_iff in Hi as [Hi|Hi].
      - left. split; [exact Hi|]. apply (cf_old _ _ _ _ _ _ C). destruct (mt_l _ _ _ (os_trk _ _ _ S) i Hi) as [j Hj]. apply (Old _ _ Hj).
      - right. apply in_seq in Hi. fold n in Hi. exists (i - Datatypes.S n). split; [lia|]. split; [lia|]. pose proof (cf_new _ _ _ _ _ _ C (i - Datatypes.S n) ltac:(lia)) as Nw.
        fold n in Nw. replace (Datatypes.S n + (i - Datatypes.S n)) with i in Nw by lia. rewrite (nr_past _ _ _ _ _ _ _ Nw). destruct (0 <? tc_past_len c); [apply incl_refl|intros x []]. }
    destruct Ap as [Ap1 Ap2]. split.
    + intros i i' r Hi Hi' Hne H H'. destruct (Kind i Hi) as [(Ti & Ei)|(k & Hk & -> & P)]; destruct (Kind i' Hi') as [(Ti' & Ei')|(k' & Hk' & -> & P')].
      * rewrite Ei in H. rewrite Ei' in H'. exact (Ap1 _ _ _ Ti Ti' Hne H H').
      * rewrite Ei in H. apply P' in H' as [<-|[]]. refine (Ap2 _ _ Ti _ H). apply in_app_iff. left. apply nth_In, Hk'.
      * rewrite Ei' in H'. apply P in H as [<-|[]]. refine (Ap2 _ _ Ti' _ H'). apply in_app_iff. left. apply nth_In, Hk.
      * apply P in H as [<-|[]]. apply P' in H' as [X|[]]. apply (proj1 (NoDup_nth rs 0) Nr) in X; auto.
    + intros i r Hi Hin H. destruct (Kind i Hi) as [(Ti & Ei)|(k & Hk & -> & P)].
      * rewrite Ei in H. refine (Ap2 _ _ Ti _ H). apply in_app_iff. right. exact Hin.
      * apply P in H as [<-|[]]. clear - Nd Hin Hk. revert k Hk Hin. induction rs as [|x rs IH]; intros k Hk Hin; cbn in *; [lia|]. inversion Nd as [|? ? Hn Nd']; subst.
        destruct k as [|k]; [apply Hn, in_app_iff; right; exact Hin|]. refine (IH Nd' k _ Hin). lia.
Qed.

(** ** The call *)
Section Call.
Variable c : tconf FO.
Hypothesis Hr : rnd_ok (tc_rnd c).
Hypothesis Hd : pairwise (tc_distance c).
Hypothesis Hreid : forall f, tc_reid_distance c = Some f -> number_blind f.

Lemma associate_reordered L al al' de de' dets dets' p ct D (s t s' : st) out : osim L s t -> mt L al al' -> mt L de de' -> incl al (s_tracked s) -> incl de (s_tracked s) ->
  (forall i, In i al -> ~ In i de) -> Permutation dets dets' -> NoDup (dets ++ D) -> apart s (dets ++ D) ->
  (forall M, get_distances (tc_rnd c) (tc_distance c) s (filter (fun i => negb (o_initializing (s_store s i))) al) (map CDet dets) = Ret M ->
     no_ties (List.length M) (ncols M) (entry M) (tc_threshold c)) ->
  (forall s1 rest mo lost, update_objects_in_place (tc_rnd c) (tc_distance c) (tc_threshold c) (filter (fun i => negb (o_initializing (s_store s i))) al) (map CDet dets) p s = (s1, Ret (rest, mo, lost)) ->
     (forall M, get_distances (tc_rnd c) (tc_distance c) s1 (filter (fun i => o_initializing (s_store s1 i)) al) rest = Ret M ->
       no_ties (List.length M) (ncols M) (entry M) (tc_threshold c)) /\
     (forall s2 rest2 found lost2 f, update_objects_in_place (tc_rnd c) (tc_distance c) (tc_threshold c) (filter (fun i => o_initializing (s_store s1 i)) al) rest p s1 = (s2, Ret (rest2, found, lost2)) ->
       tc_reid_distance c = Some f -> forall M, get_distances (tc_rnd c) (ScalarDistance f) s2 (lost ++ de) (map CObj found) = Ret M ->
       no_ties (List.length M) (ncols M) (entry M) (tc_reid_threshold c))) ->
  associate c al de dets p ct s = (s', Ret out) ->
  exists L' t' out', associate c al' de' dets' p ct t = (t', Ret out') /\ incl L L' /\ osim L' s' t' /\ apart s' D.
Proof.
  intros S Ma Md Ia Id Dj Pd Nd Ap T1 T2 E. unfold associate in *.
  destruct (update_objects_in_place (tc_rnd c) (tc_distance c) (tc_threshold c) (filter (fun i => negb (o_initializing (s_store s i))) al) (map CDet dets) p s)
    as [s1 [[[um1 mo1] ui1]|e]] eqn:U1; [|discriminate].
  destruct (T2 _ _ _ _ eq_refl) as [T2' T3]. clear T2.
  set (ini := filter (fun i => negb (o_initializing (s_store s i))) al) in *.
  set (ini' := filter (fun i => negb (o_initializing (s_store t i))) al') in *.
  assert (Mi : mt L ini ini').
  { apply mt_filter; [exact Ma|]. intros i j Hij. f_equal. revert i j Hij. apply same_pred; [apply S|apply init_blind]. }
  assert (Ii : incl ini al) by (intros i Hi; apply filter_In in Hi; tauto).
  destruct (phase_dets laws L _ _ _ s t ini ini' dets dets' p D s1 um1 mo1 ui1 Hr Hd S Mi (incl_tran Ii Ia) Pd Ap Nd T1 U1)
    as (t1 & us & us' & mo' & uo' & U1' & -> & Pu & Nu & Mm & Mu & Pm & S1 & Ap1 & Tr1 & Keep1). rewrite U1'.
  destruct (update_objects_in_place (tc_rnd c) (tc_distance c) (tc_threshold c) (filter (fun i => o_initializing (s_store s1 i)) al) (map CDet us) p s1)
    as [s2 [[[um2 mo2] ui2]|e]] eqn:U2; [|discriminate].
  set (uni := filter (fun i => o_initializing (s_store s1 i)) al) in *.
  set (uni' := filter (fun i => o_initializing (s_store t1 i)) al') in *.
  assert (Mn : mt L uni uni') by (apply mt_filter; [exact Ma|]; apply same_pred; [apply S1|apply init_blind]).
  assert (In_ : incl uni al) by (intros i Hi; apply filter_In in Hi; tauto).
  assert (Iu : incl uni (s_tracked s1)) by (rewrite Tr1; exact (incl_tran In_ Ia)).
  destruct (phase_dets laws L _ _ _ s1 t1 uni uni' us us' p D s2 um2 mo2 ui2 Hr Hd S1 Mn Iu Pu Ap1 Nu T2' U2)
    as (t2 & vs & vs' & mo2' & uo2' & U2' & -> & Pv & Nv & Mm2 & Mu2 & Pm2 & S2 & Ap2 & Tr2 & _). rewrite U2'.
  assert (Iui : incl ui1 ini) by (intros i Hi; apply (Permutation_in _ (Permutation_sym Pm)), in_app_iff; right; exact Hi).
  assert (Imo : incl mo2 uni) by (intros i Hi; apply (Permutation_in _ (Permutation_sym Pm2)), in_app_iff; left; exact Hi).
  assert (Dj2 : forall i, In i (ui1 ++ de) -> ~ In i mo2).
  { intros i Hi Hm. apply Imo in Hm. apply in_app_iff in Hi as [Hi|Hi].
    - apply Iui in Hi. unfold ini in Hi. pose proof Hi as Hi0. apply filter_In in Hi0 as [_ X]. apply negb_true_iff in X. apply (Keep1 i Hi) in X. apply filter_In in Hm as [_ Y]. congruence.
    - apply (Dj i); [apply In_, Hm|exact Hi]. }
  assert (Ml : mt L (ui1 ++ de) (uo' ++ de')).
  { apply mt_app; [exact Mu|exact Md|]. intros i Hi. apply Dj, Ii, Iui, Hi. }
  destruct (reid_phase c (ui1 ++ de) mo2 p s2) as [s3 [u|e]] eqn:W1; [|discriminate].
  assert (W : exists t3, reid_phase c (uo' ++ de') mo2' p t2 = (t3, Ret tt) /\ osim L s3 t3 /\ apart s3 (vs ++ D)).
  { unfold reid_phase in W1 |- *. destruct (tc_reid_distance c) as [f|] eqn:Ef; [|injection W1 as <- <-; exists t2; auto].
    destruct (update_objects_in_place (tc_rnd c) (ScalarDistance f) (tc_reid_threshold c) (ui1 ++ de) (map CObj mo2) p s2) as [x1 [o1|e]] eqn:X1; [|discriminate].
    injection W1 as -> <-.
    destruct (phase_objs laws L (tc_rnd c) (ScalarDistance f) (tc_reid_threshold c) s2 t2 (ui1 ++ de) (uo' ++ de') mo2 mo2' p (vs ++ D) s3 o1) as (t3 & o' & X2 & S3 & Ap3 & _);
      [exact Hr|exact (Hreid f eq_refl)|exact S2|exact Ml| |exact Mm2| |exact Dj2|exact Ap2| |exact X1|].
    - intros i Hi. rewrite Tr2, Tr1. apply in_app_iff in Hi as [Hi|Hi]; [apply Ia, Ii, Iui, Hi|apply Id, Hi].
    - intros i Hi. rewrite Tr2. apply Iu, Imo, Hi.
    - exact (T3 _ _ _ _ f eq_refl eq_refl).
    - rewrite X2. exists t3. split; [reflexivity|]. split; assumption. }
  destruct W as (t3 & W2 & S3 & Ap3). rewrite W2.
  destruct (create_objects c (map CDet vs) p ct s3) as [s4 [[]|e]] eqn:Z1; [|discriminate]. injection E as <- <-.
  destruct (creates_reordered c L vs vs' p ct D s3 t3 s4 tt S3 Ap3 Nv Pv Z1) as (L' & t4 & Z2 & I4 & S4 & Ap4). rewrite Z2.
  exists L', t4, (get_active_objects t4). auto.
Qed.

Lemma update_reordered L dets dets' p ct D (s t s' : st) out : osim L s t -> Permutation dets dets' -> NoDup (dets ++ D) -> apart s (dets ++ D) ->
  (forall thr M, In (thr, M) (tables c dets p ct s) -> no_ties (List.length M) (ncols M) (entry M) thr) ->
  update c (Some dets) p ct s = (s', Ret out) ->
  exists L' t' out', update c (Some dets') p ct t = (t', Ret out') /\ incl L L' /\ osim L' s' t' /\ apart s' D.
Proof.
  intros S Pd Nd Ap Ut E. unfold update in *.
  replace (match ct with Some _ => _ | None => _ end) with
    (let '(alive, dead, s) := begin_update c dets ct s in associate c alive dead dets p ct s) in E by (destruct ct; reflexivity).
  replace (match ct with Some _ => _ | None => _ end) with
    (let '(alive, dead, s) := begin_update c dets' ct t in associate c alive dead dets' p ct s) by (destruct ct; reflexivity).
  unfold tables in Ut. destruct (begin_update c dets ct s) as [[al de] s0] eqn:B. destruct (begin_update c dets' ct t) as [[al' de'] t0] eqn:B'.
  destruct (begin_reordered c L dets dets' ct s t al de s0 al' de' t0 (dets ++ D) S (nd_l _ _ Nd) Pd Ap B B') as (S0 & Ap0 & Ma & Md & Ia & Id & Dj).
  eapply (associate_reordered L al al' de de' dets dets' p ct D s0 t0 s' out); eauto.
  - intros M EM. apply Ut. left. rewrite EM. reflexivity.
  - intros s1 rest mo lost U1. rewrite U1 in Ut. split.
    + intros M EM. apply Ut. right. left. rewrite EM. reflexivity.
    + intros s2 rest2 found lost2 f U2 Ef M EM. rewrite U2, Ef in Ut. apply Ut. right. right. left. rewrite EM. reflexivity.
Qed.

(** ** The video *)
Lemma put_same new : forall h h' : nat -> detection N, (forall r, h r = h' r) -> forall r, put h new r = put h' new r.
Proof.
  induction new as [|[q d] new IH]; intros h h' H r; cbn; [apply H|]. apply IH. intros x. unfold upd. destruct (Nat.eqb x q); auto.
Qed.
Lemma put_osim L new (s t : st) g g' : osim L s t -> osim L (meanwhile s (put (s_heap s) new) g) (meanwhile t (put (s_heap t) new) g').
Proof. intros [[A1 A2] B C D E]. split; auto. split; auto. cbn. apply put_same, A1. Qed.

Lemma mt_matched L (R : nat -> nat -> Prop) (s t : st) l l' : osim L s t -> (forall i j, In (i, j) L -> R i j) -> mt L l l' -> matched_up R s t l l'.
Proof.
  intros S HR M. destruct (mt_right L (os_oto _ _ _ S) _ _ M) as (l2 & P & F). exists l2. split; [exact P|]. clear - S HR F. induction F; constructor; auto.
  split; [apply HR; exact H|apply (sw_view L); [apply S|exact H]].
Qed.
Lemma counts_same L (s t : st) : osim L s t -> TInv s -> TInv t -> s_count s = s_count t.
Proof.
  intros S T T'. rewrite <- (ti_count _ T), <- (ti_count _ T').
  assert (M : mt L (seq 1 (s_icount s)) (seq 1 (s_icount t))).
  { split; try apply seq_NoDup.
    - intros i Hi. apply in_seq in Hi. apply (os_left _ _ _ S). lia.
    - intros i Hi. apply in_seq in Hi. apply (os_right _ _ _ S). lia.
    - intros i j Hij. rewrite !in_seq. assert (1 <= i <= s_icount s) by (apply (os_left _ _ _ S); eauto). assert (1 <= j <= s_icount t) by (apply (os_right _ _ _ S); eauto). lia. }
  assert (M2 : mt L (filter (fun i => negb (o_initializing (s_store s i))) (seq 1 (s_icount s))) (filter (fun i => negb (o_initializing (s_store t i))) (seq 1 (s_icount t)))).
  { apply mt_filter; [exact M|]. intros i j Hij. f_equal. revert i j Hij. apply same_pred; [apply S|apply init_blind]. }
  destruct (mt_left L (os_oto _ _ _ S) _ _ M2) as (l2 & P & F). rewrite (Permutation_length P). exact (Forall2_len _ _ _ F).
Qed.

Lemma play_reordered ins : forall L ins' (s t : st) fa, osim L s t -> tracker_state c s -> tracker_state c t -> NoDup (flat_map in_dets ins) -> apart s (flat_map in_dets ins) ->
  Forall2 reordered ins ins' -> play c s ins = Some fa -> Forall (untied c) fa ->
  exists L' fb, play c t ins' = Some fb /\ incl L L' /\ one_to_one_rel (pairL L') /\ Forall2 (same_calls (pairL L')) fa fb.
Proof.
  induction ins as [|x ins IH]; intros L ins' s t fa S Ts Tt Nd Ap F E Un.
  - inversion F; subst. injection E as <-. exists L, []. split; [reflexivity|]. split; [apply incl_refl|]. split; [exact (os_oto _ _ _ S)|constructor].
  - inversion F as [|? y ? ins1 Hxy F']; subst. destruct Hxy as (R1 & R2 & R3 & R4). cbn [play] in E.
    destruct (update c _ _ _ _) as [s' [out|e]] eqn:U; [|discriminate].
    destruct (play c s' ins) as [fs|] eqn:Ep; [|discriminate]. injection E as <-. inversion Un as [|? ? Un1 Un2]; subst. unfold untied in Un1. cbn in Un1.
    pose proof (update_active _ _ _ _ _ _ _ U) as Eo. pose proof U as U0.
    assert (Ts1 : tracker_state c (meanwhile s (put (s_heap s) (in_new x)) (s_gcount s))) by (constructor; [exact Ts|apply le_n]).
    assert (Tt1 : tracker_state c (meanwhile t (put (s_heap t) (in_new x)) (s_gcount t))) by (constructor; [exact Tt|apply le_n]).
    eapply (update_reordered L (in_dets x) (in_dets y) (in_period x) (in_ct x) (flat_map in_dets ins)) in U;
      [|apply (put_osim L (in_new x) s t (s_gcount s) (s_gcount t) S)|exact R2|exact Nd|exact Ap|exact Un1].
    destruct U as (L1 & t' & out' & U2 & I1 & S' & Ap').
    assert (Ts' : tracker_state c s') by (replace s' with (fst (s', Ret out : result (list nat))) by reflexivity; rewrite <- U0; constructor; exact Ts1).
    assert (Tt' : tracker_state c t') by (replace t' with (fst (t', Ret out' : result (list nat))) by reflexivity; rewrite <- U2; constructor; exact Tt1).
    pose proof (update_active _ _ _ _ _ _ _ U2) as Eo'.
    destruct (IH L1 ins1 s' t' fs S' Ts' Tt' (nd_r _ _ Nd) Ap' F' Ep Un2) as (L' & fb & Eb & I2 & Oo & Fb).
    cbn [play]. rewrite R1, R3, R4, U2, Eb. eexists L', _. split; [reflexivity|].
    split; [eapply incl_tran; eassumption|]. split; [exact Oo|]. constructor; [|exact Fb].
    split; [|split; [|split]]; cbn.
    + subst out out'. apply (mt_matched L1); [exact S'|intros i j Hij; exact (I2 _ Hij)|]. refine (mt_filter L1 (fun i => is_active (s_store s' i)) (fun j => is_active (s_store t' j)) _ _ (os_trk _ _ _ S') _). apply same_pred; [exact (os_world _ _ _ S')|apply active_blind].
    + apply (mt_matched L1); [exact S'|intros i j Hij; exact (I2 _ Hij)|]. exact (os_trk _ _ _ S').
    + unfold total_object_count. apply (counts_same L1); auto; [apply (tracker_state_good c s' Ts')|apply (tracker_state_good c t' Tt')].
    + exact (sw_heap _ _ _ (os_world _ _ _ S')).
Qed.

Theorem order_free h g g' dummy dummy' ins ins' fa :
  NoDup (flat_map in_dets ins) -> Forall2 reordered ins ins' ->
  play c (new_tracker h g dummy) ins = Some fa -> Forall (untied c) fa ->
  exists R fb, play c (new_tracker h g' dummy') ins' = Some fb /\ one_to_one_rel R /\ Forall2 (same_calls R) fa fb.
Proof.
  intros Nd F E Un. destruct (play_reordered ins [] ins' (new_tracker h g dummy) (new_tracker h g' dummy') fa) as (L' & fb & A & _ & B & C); auto.
  - split; cbn.
    + split; cbn; [reflexivity|intros i j []].
    + intros i j i' j' [].
    + intros i. split; [lia|intros [j []]].
    + intros i. split; [lia|intros [j []]].
    + split; cbn; try constructor; intros; contradiction.
  - constructor.
  - constructor.
  - split; cbn; intros; contradiction.
  - exists (pairL L'), fb. auto.
Qed.
End Call.
End Main.

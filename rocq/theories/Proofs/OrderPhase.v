(** One association phase of two trackers that hold the same objects in a different order.  Used for C92. *)
From Coq Require Import ZArith Bool Arith String List Lia Permutation.
From Verif Require Import Model.Num Model.Base Model.Matching Model.Filter Model.Tracker Spec.MatchingSpec Spec.CallSpec Spec.ExampleVideo Spec.LabelSpec
  Spec.OrderSpec Proofs.NumLaws Proofs.MatchingProofs Proofs.TrackerFrame Proofs.Identity Proofs.Effect Proofs.LabelSim
  Proofs.OrderLocal Proofs.OrderSeq Proofs.OrderTable Proofs.OrderMatch.
Import ListNotations.

Lemma nd_l {A} (x y : list A) : NoDup (x ++ y) -> NoDup x.
Proof. induction x as [|c x IH]; intros Nd; [constructor|]. cbn in Nd. inversion Nd as [|? ? Hn Nd']; subst. constructor; [|auto]. intros H. apply Hn, in_app_iff. left. exact H. Qed.
Lemma nd_r {A} (x y : list A) : NoDup (x ++ y) -> NoDup y.
Proof. induction x as [|c x IH]; intros Nd; [exact Nd|]. cbn in Nd. inversion Nd; subst. auto. Qed.

(** The same objects, without repetition, in any order. *)
Record mt (L : list (nat * nat)) (l l' : list nat) : Prop := MkMt {
  mt_nd : NoDup l;
  mt_nd' : NoDup l';
  mt_l : forall i, In i l -> exists j, In (i, j) L;
  mt_r : forall j, In j l' -> exists i, In (i, j) L;
  mt_iff : forall i j, In (i, j) L -> (In i l <-> In j l')
}.
Definition oto (L : list (nat * nat)) : Prop := forall i j i' j', In (i, j) L -> In (i', j') L -> (i = i' <-> j = j').

Section Mt.
Variable L : list (nat * nat).
Hypothesis HL : oto L.

Lemma pick_right (l : list nat) : (forall i, In i l -> exists j, In (i, j) L) -> exists l2, Forall2 (pairL L) l l2.
Proof.
  induction l as [|i l IH]; intros H; [exists []; constructor|]. destruct (H i (or_introl eq_refl)) as [j Hj]. destruct IH as [l2 H2]; [intros; apply H; right; assumption|].
  exists (j :: l2). constructor; auto.
Qed.
Lemma pick_left (l : list nat) : (forall j, In j l -> exists i, In (i, j) L) -> exists l2, Forall2 (pairL L) l2 l.
Proof.
  induction l as [|j l IH]; intros H; [exists []; constructor|]. destruct (H j (or_introl eq_refl)) as [i Hi]. destruct IH as [l2 H2]; [intros; apply H; right; assumption|].
  exists (i :: l2). constructor; auto.
Qed.
Lemma F2_in_l l l' i : Forall2 (pairL L) l l' -> In i l -> exists j, In (i, j) L /\ In j l'.
Proof. induction 1 as [|a b l l' Hab F IH]; intros []; [subst; exists b; split; [assumption|left; reflexivity]|]. destruct (IH H) as (j & A & B). exists j. split; [assumption|right; assumption]. Qed.
Lemma F2_in_r l l' j : Forall2 (pairL L) l l' -> In j l' -> exists i, In (i, j) L /\ In i l.
Proof. induction 1 as [|a b l l' Hab F IH]; intros []; [subst; exists a; split; [assumption|left; reflexivity]|]. destruct (IH H) as (i & A & B). exists i. split; [assumption|right; assumption]. Qed.
Lemma F2_nd l l' : Forall2 (pairL L) l l' -> NoDup l -> NoDup l'.
Proof.
  induction 1 as [|a b l l' Hab F IH]; intros Nd; [constructor|]. inversion Nd as [|? ? Hn Nd']; subst. constructor; [|auto].
  intros Hb. destruct (F2_in_r _ _ _ F Hb) as (i & Hi & Hil). apply Hn. replace a with i; [exact Hil|]. apply (HL i b a b); auto.
Qed.
Lemma F2_nd' l l' : Forall2 (pairL L) l l' -> NoDup l' -> NoDup l.
Proof.
  induction 1 as [|a b l l' Hab F IH]; intros Nd; [constructor|]. inversion Nd as [|? ? Hn Nd']; subst. constructor; [|auto].
  intros Ha. destruct (F2_in_l _ _ _ F Ha) as (j & Hj & Hjl). apply Hn. replace b with j; [exact Hjl|]. apply (HL a j a b); auto.
Qed.
Lemma mt_left l l' : mt L l l' -> exists l2, Permutation l l2 /\ Forall2 (pairL L) l2 l'.
Proof.
  intros [A B C D E]. destruct (pick_left l' D) as (l2 & F). exists l2. split; [|exact F]. apply NoDup_Permutation; [exact A|eapply F2_nd'; eauto|].
  intros i. split.
  - intros Hi. destruct (C i Hi) as [j Hj]. destruct (F2_in_r _ _ j F (proj1 (E i j Hj) Hi)) as (i' & Hi' & Hl). replace i with i'; [exact Hl|]. apply (HL i' j i j); auto.
  - intros Hi. destruct (F2_in_l _ _ i F Hi) as (j & Hj & Hl). apply (E i j Hj), Hl.
Qed.
Lemma mt_right l l' : mt L l l' -> exists l2, Permutation l' l2 /\ Forall2 (pairL L) l l2.
Proof.
  intros [A B C D E]. destruct (pick_right l C) as (l2 & F). exists l2. split; [|exact F]. apply NoDup_Permutation; [exact B|eapply F2_nd; eauto|].
  intros j. split.
  - intros Hj. destruct (D j Hj) as [i Hi]. destruct (F2_in_l _ _ i F (proj2 (E i j Hi) Hj)) as (j' & Hj' & Hl). replace j with j'; [exact Hl|]. apply (HL i j' i j); auto.
  - intros Hj. destruct (F2_in_r _ _ j F Hj) as (i & Hi & Hl). apply (E i j Hi), Hl.
Qed.
Lemma mt_arr l l' : mt L l l' -> exists q, arr (pairL L) q l l'.
Proof. intros H. destruct (mt_left _ _ H) as (l2 & P & F). eapply perm_arr; eauto. Qed.
Lemma mt_of l l2 l' : Permutation l l2 -> Forall2 (pairL L) l2 l' -> NoDup l -> mt L l l'.
Proof.
  intros P F Nd. assert (Nd2 : NoDup l2) by (eapply Permutation_NoDup; eauto). split; auto.
  - eapply F2_nd; eauto.
  - intros i Hi. apply (Permutation_in _ P) in Hi. destruct (F2_in_l _ _ _ F Hi) as (j & Hj & _). eauto.
  - intros j Hj. destruct (F2_in_r _ _ _ F Hj) as (i & Hi & _). eauto.
  - intros i j Hij. split.
    + intros Hi. apply (Permutation_in _ P) in Hi. destruct (F2_in_l _ _ _ F Hi) as (j' & Hj & Hl). replace j with j'; [exact Hl|]. apply (HL i j' i j); auto.
    + intros Hj. destruct (F2_in_r _ _ _ F Hj) as (i' & Hi & Hl). apply (Permutation_in _ (Permutation_sym P)). replace i with i'; [exact Hl|]. apply (HL i' j i j); auto.
Qed.
Lemma mt_filter (f f' : nat -> bool) l l' : mt L l l' -> (forall i j, In (i, j) L -> f i = f' j) -> mt L (filter f l) (filter f' l').
Proof.
  intros [A B C D E] H. split; auto using NoDup_filter.
  - intros i Hi. apply filter_In in Hi. apply C. tauto.
  - intros i Hi. apply filter_In in Hi. apply D. tauto.
  - intros i j Hij. rewrite !filter_In, (H i j Hij), (E i j Hij). reflexivity.
Qed.
Lemma mt_app l1 l2 k1 k2 : mt L l1 k1 -> mt L l2 k2 -> (forall x, In x l1 -> ~ In x l2) -> mt L (l1 ++ l2) (k1 ++ k2).
Proof.
  intros [A B C D E] [A' B' C' D' E'] Dj.
  assert (App : forall a b : list nat, NoDup a -> NoDup b -> (forall x, In x a -> ~ In x b) -> NoDup (a ++ b)).
  { clear. induction a as [|x a IH]; intros b H1 H2 H; cbn; auto. inversion H1; subst. constructor.
    - rewrite in_app_iff. intros [X|X]; [auto|]. apply (H x); [left; auto|auto].
    - apply IH; auto. intros y Hy. apply H. right; auto. }
  split.
  - apply App; auto.
  - apply App; auto. intros j Hj Hj'. destruct (D j Hj) as [i Hi]. apply (Dj i); [apply (E i j Hi), Hj|apply (E' i j Hi), Hj'].
  - intros i Hi. apply in_app_iff in Hi as [H|H]; auto.
  - intros i Hi. apply in_app_iff in Hi as [H|H]; auto.
  - intros i j Hij. rewrite !in_app_iff, (E i j Hij), (E' i j Hij). reflexivity.
Qed.
(** What remains. *)
Lemma mt_rest l l' a a' b b' : mt L l l' -> mt L a a' -> Permutation l (a ++ b) -> Permutation l' (a' ++ b') -> mt L b b'.
Proof.
  intros M Ma P P'. assert (Nd : NoDup (a ++ b)) by (eapply Permutation_NoDup; [exact P|apply M]). assert (Nd' : NoDup (a' ++ b')) by (eapply Permutation_NoDup; [exact P'|apply M]).
  assert (Split : forall (x y : list nat), NoDup (x ++ y) -> NoDup y /\ forall z, In z x -> ~ In z y).
  { clear. induction x as [|c x IH]; intros y Nd; cbn in Nd; [split; [exact Nd|intros z []]|]. inversion Nd as [|? ? Hn Nd']; subst. destruct (IH y Nd') as [A B]. split; [exact A|].
    intros z [<-|Hz]; [intros H; apply Hn, in_app_iff; right; exact H|apply B, Hz]. }
  destruct (Split _ _ Nd) as [N1 D1]. destruct (Split _ _ Nd') as [N2 D2].
  assert (Bi : forall i, In i b -> In i l) by (intros i Hi; apply (Permutation_in _ (Permutation_sym P)), in_app_iff; right; exact Hi).
  assert (Bj : forall i, In i b' -> In i l') by (intros i Hi; apply (Permutation_in _ (Permutation_sym P')), in_app_iff; right; exact Hi).
  split; auto.
  - intros i Hi. apply (mt_l _ _ _ M), Bi, Hi.
  - intros i Hi. apply (mt_r _ _ _ M), Bj, Hi.
  - intros i j Hij. split; intros H.
    + pose proof (proj1 (mt_iff _ _ _ M i j Hij) (Bi i H)) as H'. apply (Permutation_in _ P'), in_app_iff in H' as [H'|H']; [|exact H'].
      apply (mt_iff _ _ _ Ma i j Hij) in H'. elim (D1 i H' H).
    + pose proof (proj2 (mt_iff _ _ _ M i j Hij) (Bj j H)) as H'. apply (Permutation_in _ P), in_app_iff in H' as [H'|H']; [|exact H'].
      apply (mt_iff _ _ _ Ma i j Hij) in H'. elim (D2 j H' H).
Qed.
End Mt.

Section Ph.
Context {N : Num} (laws : NumLaws N) {FO : filter_ops N}.
Notation st := (st FO).

(** The two trackers hold the same objects. *)
Record osim (L : list (nat * nat)) (s t : st) : Prop := MkOsim {
  os_world : same_world L s t;
  os_oto : oto L;
  os_left : forall i, 1 <= i <= s_icount s <-> exists j, In (i, j) L;
  os_right : forall j, 1 <= j <= s_icount t <-> exists i, In (i, j) L;
  os_trk : mt L (s_tracked s) (s_tracked t)
}.

(** No detection is among the past detections of two objects, and those in [D] are among those of none. *)
Definition apart (s : st) (D : list nat) : Prop :=
  (forall i i' r, In i (s_tracked s) -> In i' (s_tracked s) -> i <> i' -> In r (o_past (s_store s i)) -> ~ In r (o_past (s_store s i'))) /\
  (forall i r, In i (s_tracked s) -> In r D -> ~ In r (o_past (s_store s i))).

Lemma min_anonymous objs (s s1 : st) i : min_frame objs s s1 -> anonymous (s_store s1 i) = anonymous (s_store s i).
Proof. intros F. destruct (mf_store _ _ _ F i) as [m ->]. reflexivity. Qed.
Lemma min_past objs (s s1 : st) i : min_frame objs s s1 -> o_past (s_store s1 i) = o_past (s_store s i).
Proof. intros F. destruct (mf_store _ _ _ F i) as [m ->]. reflexivity. Qed.
Lemma osim_min L objs objs' s t s1 t1 : osim L s t -> min_frame objs s s1 -> min_frame objs' t t1 -> osim L s1 t1.
Proof.
  intros [[W1 W2] B C D E] F F'. split; auto.
  - split.
    + intros r. rewrite (mf_heap _ _ _ F), (mf_heap _ _ _ F'). apply W1.
    + intros i j Hij. rewrite (min_anonymous _ _ _ i F), (min_anonymous _ _ _ j F'). apply W2, Hij.
  - rewrite (mf_icount _ _ _ F). exact C.
  - rewrite (mf_icount _ _ _ F'). exact D.
  - rewrite (mf_tracked _ _ _ F), (mf_tracked _ _ _ F'). exact E.
Qed.
Lemma apart_min objs s s1 D : apart s D -> min_frame objs s s1 -> apart s1 D.
Proof.
  intros [A B] F. unfold apart. rewrite (mf_tracked _ _ _ F). split.
  - intros i i' r. rewrite !(min_past _ _ _ _ F). apply A.
  - intros i r. rewrite !(min_past _ _ _ _ F). apply B.
Qed.

Lemma nth_pair {A B} (R : A -> B -> Prop) p l l' a d d' : arr R p l l' -> a < List.length l' -> R (nth (p a) l d) (nth a l' d') /\ p a < List.length l.
Proof.
  intros (Ln & Pp & H) Ha. destruct (H a _ (nth_error_nth' l' d' Ha)) as (x & Ex & Rx). rewrite (nth_error_nth _ _ d Ex). split; [exact Rx|].
  apply nth_error_Some. congruence.
Qed.

Definition mkz (M' : matrix N) (g : nat -> nat) (obs obs' rs' : list nat) (s1 : st) (ab : nat * nat) : hitem (N:=N) :=
  (nth (g (snd ab)) obs 0, nth (snd ab) obs' 0, nth (fst ab) rs' 0, entry M' (fst ab) (snd ab), o_past (s_store s1 (nth (g (snd ab)) obs 0))).

Lemma one_to_one_ne pairs a b a' b' : one_to_one pairs -> In (a, b) pairs -> In (a', b') pairs -> (a, b) <> (a', b') -> a <> a' /\ b <> b'.
Proof.
  intros [Hf Hs] H H' Hne. split; intros ->; apply Hne.
  - clear - Hf H H'. induction pairs as [|[x y] l IH]; [destruct H|]. cbn in Hf. inversion Hf as [|? ? Hn Hf']; subst. destruct H as [E|H], H' as [E'|H'].
    + congruence. + injection E as -> ->. elim Hn. apply (in_map fst) in H'. exact H'. + injection E' as -> ->. elim Hn. apply (in_map fst) in H. exact H. + auto.
  - clear - Hs H H'. induction pairs as [|[x y] l IH]; [destruct H|]. cbn in Hs. inversion Hs as [|? ? Hn Hs']; subst. destruct H as [E|H], H' as [E'|H'].
    + congruence. + injection E as -> ->. elim Hn. apply (in_map snd) in H'. exact H'. + injection E' as -> ->. elim Hn. apply (in_map snd) in H. exact H. + auto.
Qed.
Lemma nth_ne l a a' : NoDup l -> a < List.length l -> a' < List.length l -> a <> a' -> nth a l 0 <> nth a' l 0.
Proof. intros Nd Ha Ha' Hne E. apply Hne. apply (proj1 (NoDup_nth l 0) Nd); assumption. Qed.

Theorem phase_dets L rnd d thr s t obs obs' rs rs' p D s' uc mo uo : rnd_ok rnd -> pairwise d -> osim L s t -> mt L obs obs' -> incl obs (s_tracked s) ->
  Permutation rs rs' -> apart s (rs ++ D) -> NoDup (rs ++ D) ->
  (forall M, get_distances rnd d s obs (map CDet rs) = Ret M -> no_ties (List.length M) (ncols M) (entry M) thr) ->
  update_objects_in_place rnd d thr obs (map CDet rs) p s = (s', Ret (uc, mo, uo)) ->
  exists t' us us' mo' uo', update_objects_in_place rnd d thr obs' (map CDet rs') p t = (t', Ret (map CDet us', mo', uo')) /\
    uc = map CDet us /\ Permutation us us' /\ NoDup (us ++ D) /\ mt L mo mo' /\ mt L uo uo' /\ Permutation obs (mo ++ uo) /\
    osim L s' t' /\ apart s' (us ++ D) /\ s_tracked s' = s_tracked s /\
    (forall i, In i obs -> o_initializing (s_store s i) = false -> o_initializing (s_store s' i) = false).
Proof.
  intros Hr Hd S Mo Io Pr Ap Nd Hnt E.
  destruct (mt_arr _ (os_oto _ _ _ S) _ _ Mo) as [g Ag].
  assert (Ac : exists f, arr (cpair L) f (map CDet rs) (map CDet rs') /\ arr eq f rs rs').
  { destruct (perm_arr eq rs rs' rs' Pr) as [f (A1 & A2 & A3)]; [clear; induction rs'; constructor; auto|]. exists f. split; [|split; auto]. split; [rewrite !map_length; exact A1|]. split; [rewrite map_length; exact A2|].
    intros a y Hy. rewrite nth_error_map in Hy. destruct (nth_error rs' a) as [r|] eqn:Er; [|discriminate]. injection Hy as <-. destruct (A3 a r Er) as (x & Ex & ->).
    exists (CDet r). rewrite nth_error_map, Ex. split; reflexivity. }
  destruct Ac as (f & Ac & Af).
  destruct (phase_reordered laws L rnd d thr s t obs obs' (map CDet rs) (map CDet rs') f g p s' _ Hr Hd (os_world _ _ _ S) Ag Ac Hnt E)
    as (M & pairs & s1 & M' & pairs' & t1 & Ph & Ph' & Pm & Ent & H0 & H1).
  assert (Hits : hits p (map (mk_hit M obs rs) pairs) s1 s' /\ uc = map CDet (not_in_idxs (map fst pairs) 0 rs) /\
    mo = map (fun q => nth (snd q) obs 0) pairs /\ uo = not_in_idxs (map snd pairs) 0 obs).
  { destruct pairs as [|x pairs0].
    - destruct (H0 eq_refl) as [-> Eo]. injection Eo as -> -> ->. cbn. rewrite !not_in_idxs_nil. repeat split; auto. constructor.
    - specialize (H1 ltac:(discriminate)). apply apply_matches_dets in H1; [|apply (ph_final _ _ _ _ _ _ _ _ _ Ph)]. destruct H1 as (-> & -> & -> & H). rewrite not_in_idxs_map. auto. }
  destruct Hits as (Hits & -> & -> & ->). clear H0 H1.
  destruct (ph_final _ _ _ _ _ _ _ _ _ Ph) as (O1 & R1 & B1 & _). destruct (ph_final _ _ _ _ _ _ _ _ _ Ph') as (O2 & R2 & B2 & _). rewrite map_length in R1, R2.
  pose proof (osim_min L _ _ _ _ _ _ S (ph_min _ _ _ _ _ _ _ _ _ Ph) (ph_min _ _ _ _ _ _ _ _ _ Ph')) as S1.
  pose proof (apart_min _ _ _ _ Ap (ph_min _ _ _ _ _ _ _ _ _ Ph)) as [Ap1 Ap2]. pose proof (ph_min _ _ _ _ _ _ _ _ _ Ph) as Mf. pose proof (ph_min _ _ _ _ _ _ _ _ _ Ph') as Mf'.
  rewrite <- (mf_tracked _ _ _ Mf) in Io. assert (Trk1 : s_tracked s1 = s_tracked s) by apply Mf.
  set (z := mkz M' g obs obs' rs' s1).
  (* the pairs of the other tracker *)
  assert (In2 : forall a b, In (a, b) pairs' -> In (nth (g b) obs 0, nth b obs' 0) L /\ g b < List.length obs /\ f a < List.length rs /\ nth (f a) rs 0 = nth a rs' 0 /\
     In (nth (g b) obs 0) obs /\ In (nth a rs' 0) rs).
  { intros a b Hab. destruct (R2 a b Hab) as [Ha Hb]. destruct (nth_pair _ _ _ _ b 0 0 Ag Hb) as [X1 X2]. destruct (nth_pair _ _ _ _ a 0 0 Af Ha) as [X3 X4].
    repeat split; auto; [apply nth_In; exact X2|]. rewrite <- X3. apply nth_In, X4. }
  assert (Zne : forall ab ab', In ab pairs' -> In ab' pairs' -> z ab <> z ab' -> apart_items hi_P hi_F (z ab) (z ab')).
  { intros [a b] [a' b'] H H' Hne. destruct (one_to_one_ne _ a b a' b' O2 H H') as [Na Nb]; [intros X; injection X as -> ->; apply Hne; reflexivity|].
    destruct (In2 a b H) as (Y1 & Y2 & Y3 & Y4 & Y5 & Y6). destruct (In2 a' b' H') as (Z1 & Z2 & Z3 & Z4 & Z5 & Z6).
    assert (Ni : nth (g b) obs 0 <> nth (g b') obs 0).
    { apply nth_ne; auto; [apply Mo|]. intros X. apply Nb. apply (proj1 (proj2 (proj1 (proj2 Ag)))); auto; [apply (R2 a b H)|apply (R2 a' b' H')]. }
    assert (Nj : nth b obs' 0 <> nth b' obs' 0) by (apply nth_ne; auto; [apply Mo|apply (R2 a b H)|apply (R2 a' b' H')]).
    assert (Nr : nth a rs' 0 <> nth a' rs' 0).
    { apply nth_ne; auto; [|apply (R2 a b H)|apply (R2 a' b' H')]. eapply Permutation_NoDup; [exact Pr|]. clear - Nd. induction rs as [|r rs IH]; [constructor|]. cbn in Nd. inversion Nd; subst. constructor; [|auto]. intros X. apply H1, in_app_iff. left. exact X. }
    unfold apart_items, z, mkz. cbn. split; [|split].
    - intros x [<-|[]] [X|[]]. congruence.
    - intros x [<-|[]] [X|[]]. congruence.
    - intros x [<-|Hx] [X|X].
      + congruence.
      + exact (Ap2 _ _ (Io _ Z5) (in_or_app _ _ _ (or_introl Y6)) X).
      + subst x. exact (Ap2 _ _ (Io _ Y5) (in_or_app _ _ _ (or_introl Z6)) Hx).
      + exact (Ap1 _ _ _ (Io _ Y5) (Io _ Z5) Ni Hx X). }
  assert (E1 : map hi_1 (map z pairs') = map (mk_hit M obs rs) (map (swap f g) pairs')).
  { rewrite !map_map. apply map_ext_in. intros [a b] Hab. unfold z, mkz, mk_hit, swap. cbn. rewrite (Ent a b Hab). destruct (In2 a b Hab) as (_ & _ & _ & -> & _). reflexivity. }
  assert (E2 : map hi_2 (map z pairs') = map (mk_hit M' obs' rs') pairs') by (rewrite map_map; reflexivity).
  assert (Pm' : Permutation (map (mk_hit M obs rs) pairs) (map hi_1 (map z pairs'))) by (rewrite E1; apply Permutation_map, Pm).
  apply Permutation_map_inv in Pm' as (l & El & Pl).
  assert (NdZ : NoDup (map z pairs')).
  { apply (NoDup_map_inv hi_j). rewrite map_map. unfold z, mkz. cbn. clear - O2 R2 Mo. destruct O2 as [_ O2]. induction pairs' as [|[a b] l IH]; cbn; [constructor|].
    cbn in O2. inversion O2 as [|? ? Hn O3]; subst. constructor.
    - intros H. apply in_map_iff in H as ([a' b'] & E & H). cbn in E. apply Hn. replace b with b'; [apply (in_map snd) in H; exact H|].
      apply (proj1 (NoDup_nth obs' 0) (mt_nd' _ _ _ Mo)); [apply (R2 a' b'); right; exact H|apply (R2 a b); left; reflexivity|exact E].
    - apply IH; [exact O3|]. intros x y H. apply R2. right. exact H. }
  rewrite El in Hits.
  assert (InZ : forall x, In x l -> exists a b, In (a, b) pairs' /\ x = z (a, b)).
  { intros x Hx. apply (Permutation_in _ (Permutation_sym Pl)) in Hx. apply in_map_iff in Hx as ([a b] & <- & H). eauto. }
  destruct (hits_any_order p l (map z pairs') s1 s' t1 Hits) as (t' & Hits' & G & Out1 & Out2).
  { eapply Permutation_NoDup; eauto. }
  { intros x x' Hx Hx' Hne. destruct (InZ x Hx) as (a & b & H & ->). destruct (InZ x' Hx') as (a' & b' & H' & ->). apply Zne; auto. }
  { apply Permutation_sym, Pl. }
  { intros x Hx. destruct (InZ x Hx) as (a & b & H & ->). destruct (In2 a b H) as (Y1 & _). unfold z, mkz. cbn. split.
    - apply (sw_obj _ _ _ (os_world _ _ _ S1)). exact Y1.
    - intros q Hq. right. exact Hq.
    - intros q _. apply (sw_heap _ _ _ (os_world _ _ _ S1)). }
  rewrite E2 in Hits'.
  assert (Emo : map (fun q => nth (snd q) obs 0) pairs = map hi_i l).
  { transitivity (map h_obj (map (mk_hit M obs rs) pairs)); [rewrite map_map; reflexivity|]. rewrite El, map_map. apply map_ext. intros [[[[? ?] ?] ?] ?]. reflexivity. }
  assert (Emo' : map (fun q => nth (snd q) obs' 0) pairs' = map hi_j (map z pairs')) by (rewrite map_map; reflexivity).
  assert (Hsel : Permutation obs (map (fun q => nth (snd q) obs 0) pairs ++ not_in_idxs (map snd pairs) 0 obs)).
  { rewrite <- (map_map snd (fun k => nth k obs 0)). apply select_perm; [apply O1|]. intros k Hk. apply in_map_iff in Hk as ([a b] & <- & H). apply (R1 a b H). }
  assert (Hsel' : Permutation obs' (map (fun q => nth (snd q) obs' 0) pairs' ++ not_in_idxs (map snd pairs') 0 obs')).
  { rewrite <- (map_map snd (fun k => nth k obs' 0)). apply select_perm; [apply O2|]. intros k Hk. apply in_map_iff in Hk as ([a b] & <- & H). apply (R2 a b H). }
  assert (Rsel : Permutation rs (map (fun q => nth (fst q) rs 0) pairs ++ not_in_idxs (map fst pairs) 0 rs)).
  { rewrite <- (map_map fst (fun k => nth k rs 0)). apply select_perm; [apply O1|]. intros k Hk. apply in_map_iff in Hk as ([a b] & <- & H). apply (R1 a b H). }
  assert (Rsel' : Permutation rs' (map (fun q => nth (fst q) rs' 0) pairs' ++ not_in_idxs (map fst pairs') 0 rs')).
  { rewrite <- (map_map fst (fun k => nth k rs' 0)). apply select_perm; [apply O2|]. intros k Hk. apply in_map_iff in Hk as ([a b] & <- & H). apply (R2 a b H). }
  assert (MtM : mt L (map (fun q => nth (snd q) obs 0) pairs) (map (fun q => nth (snd q) obs' 0) pairs')).
  { rewrite Emo, Emo'. apply (mt_of L (os_oto _ _ _ S) _ (map hi_i (map z pairs'))); [apply Permutation_map, Permutation_sym, Pl| |].
    - rewrite !map_map. clear - In2. induction pairs' as [|[a b] l IH]; cbn; constructor; [apply (In2 a b); left; reflexivity|apply IH; intros; apply In2; right; assumption].
    - rewrite <- Emo. eapply nd_l. eapply Permutation_NoDup; [exact Hsel|apply Mo]. }
  assert (Rm : Permutation (map (fun q => nth (fst q) rs 0) pairs) (map (fun q => nth (fst q) rs' 0) pairs')).
  { rewrite (Permutation_map (fun q => nth (fst q) rs 0) Pm). rewrite map_map. replace (map (fun x => nth (fst (swap f g x)) rs 0) pairs') with (map (fun q => nth (fst q) rs' 0) pairs'); [reflexivity|].
    apply map_ext_in. intros [a b] Hab. cbn. symmetry. apply (In2 a b Hab). }
  set (us := not_in_idxs (map fst pairs) 0 rs) in *. set (us' := not_in_idxs (map fst pairs') 0 rs') in *.
  assert (Pus : Permutation us us').
  { apply (Permutation_app_inv_l (map (fun q => nth (fst q) rs 0) pairs)). rewrite <- Rsel. rewrite Rm. rewrite <- Rsel'. exact Pr. }
  assert (Nd2 : NoDup ((map (fun q => nth (fst q) rs 0) pairs ++ us) ++ D)) by (eapply Permutation_NoDup; [apply Permutation_app_tail, Rsel|exact Nd]).
  assert (Tr' : s_tracked s' = s_tracked s1).
  { rewrite <- El in Hits. apply (hf_tracked _ _ _ _ (hits_effect p _ s1 s' Hits ltac:(rewrite map_map; apply MtM))). }
  assert (Tr2 : s_tracked t' = s_tracked t1).
  { apply (hf_tracked _ _ _ _ (hits_effect p _ t1 t' Hits' ltac:(rewrite map_map; apply MtM))). }
  pose proof Hits as HE. rewrite <- El in HE. apply hits_effect in HE; [|rewrite map_map; apply MtM].
  pose proof Hits' as HE'. apply hits_effect in HE'; [|rewrite map_map; apply MtM].
  exists t', us, us', (map (fun q => nth (snd q) obs' 0) pairs'), (not_in_idxs (map snd pairs') 0 obs').
  split; [|split; [reflexivity|split; [exact Pus|split; [|split; [exact MtM|split; [|split; [exact Hsel|split; [|split; [|split; [congruence|]]]]]]]]]].
  - apply (uip_forward laws rnd d thr obs' (map CDet rs') p t M' pairs' t1 t' _ Ph'); [| |exact Hr].
    + intros ->. cbn in Hits'. inversion Hits'; subst. unfold us'. cbn. rewrite !not_in_idxs_nil. auto.
    + intros _. rewrite (apply_matches_dets_forward thr M' obs' rs' p pairs' _ [] _ t1 t' B2 R2 Hits'). rewrite not_in_idxs_map. reflexivity.
  - rewrite <- app_assoc in Nd2. apply nd_r in Nd2. exact Nd2.
  - eapply (mt_rest L _ _ _ _ _ _ Mo MtM Hsel Hsel').
  - assert (Lall : forall i j, In (i, j) L -> anonymous (s_store s' i) = anonymous (s_store t' j)).
    { intros i j Hij. destruct (in_dec Nat.eq_dec i (map hi_i l)) as [Hi|Hi].
      - apply in_map_iff in Hi as (x & Ex & Hx). destruct (InZ x Hx) as (a & b & H & ->). pose proof (lc_obj _ _ _ _ _ (G _ Hx)) as Ea. destruct (In2 a b H) as (Y1 & _).
        cbn in Ex, Ea. subst i. assert (Ej : j = nth b obs' 0) by (apply (os_oto _ _ _ S _ _ _ _ Hij Y1); reflexivity). subst j. exact Ea.
      - rewrite (ou_store _ _ _ _ Out1 i Hi). rewrite (ou_store _ _ _ _ Out2 j).
        + apply (sw_obj _ _ _ (os_world _ _ _ S1)), Hij.
        + intros Hj. apply Hi. rewrite <- Emo. rewrite <- Emo' in Hj. apply (mt_iff _ _ _ MtM i j Hij), Hj. }
    split.
    + split; [|exact Lall]. intros r. destruct (in_dec Nat.eq_dec r (flat_map hi_F l)) as [Hq|Hq].
      * apply in_flat_map in Hq as (x & Hx & Hq). apply (lc_heap _ _ _ _ _ (G x Hx) r Hq).
      * rewrite (ou_heap _ _ _ _ Out1 r Hq). rewrite (ou_heap _ _ _ _ Out2 r); [apply (sw_heap _ _ _ (os_world _ _ _ S1))|].
        intros X. apply Hq. apply in_flat_map in X as (x & Hx & X). apply in_flat_map. exists x. split; [|exact X]. eapply Permutation_in; eauto.
    + apply S.
    + rewrite (hf_icount _ _ _ _ HE). apply S1.
    + rewrite (hf_icount _ _ _ _ HE'). apply S1.
    + rewrite Tr', Tr2. apply S1.
  - (* past detections *)
    assert (Past : forall i, In i (s_tracked s) -> incl (o_past (s_store s' i)) (o_past (s_store s1 i)) \/
      exists a b, In (a, b) pairs' /\ i = nth (g b) obs 0 /\ incl (o_past (s_store s' i)) (nth a rs' 0 :: o_past (s_store s1 i))).
    { intros i Hi. destruct (in_dec Nat.eq_dec i (map hi_i l)) as [Hin|Hin].
      - right. apply in_map_iff in Hin as (x & Ex & Hx). destruct (InZ x Hx) as (a & b & H & ->). cbn in Ex. exists a, b. split; [exact H|]. split; [auto|].
        pose proof (lc_past _ _ _ _ _ (G _ Hx)) as X. cbn in X. rewrite Ex in X. exact X.
      - left. rewrite (ou_store _ _ _ _ Out1 i Hin). apply incl_refl. }
    assert (Unused : forall a b, In (a, b) pairs' -> ~ In (nth a rs' 0) (us ++ D)).
    { intros a b Hab X. assert (Y : In (nth a rs' 0) (map (fun q => nth (fst q) rs 0) pairs)).
      { apply (Permutation_in _ (Permutation_sym Rm)). apply in_map_iff. exists (a, b). auto. }
      clear - Nd2 X Y. rewrite <- app_assoc in Nd2.
      revert Nd2 Y. generalize (map (fun q => nth (fst q) rs 0) pairs) as m. induction m as [|c m IH]; intros Nd2 Y; [destruct Y|]. cbn in Nd2. inversion Nd2; subst.
      destruct Y as [->|Y]; [|auto]. apply H1, in_app_iff. right. exact X. }
    assert (Sub : forall x, In x (us ++ D) -> In x (rs ++ D)).
    { intros x Hx. apply in_app_iff in Hx as [Hx|Hx]; apply in_app_iff; [left|right; exact Hx]. apply (Permutation_in _ (Permutation_sym Rsel)), in_app_iff. right. exact Hx. }
    unfold apart. rewrite Tr', Trk1. rewrite Trk1 in Ap1, Ap2. split.
    + intros i i' r Hi Hi' Hne H H'. destruct (Past i Hi) as [P|(a & b & Hab & Ei & P)]; apply P in H; (destruct (Past i' Hi') as [P'|(a' & b' & Hab' & Ei' & P')]; apply P' in H').
      * exact (Ap1 i i' r Hi Hi' Hne H H').
      * destruct H' as [<-|H']; [|exact (Ap1 i i' r Hi Hi' Hne H H')]. refine (Ap2 i _ Hi _ H). apply in_app_iff. left. apply (In2 a' b' Hab').
      * destruct H as [<-|H]; [|exact (Ap1 i i' r Hi Hi' Hne H H')]. refine (Ap2 i' _ Hi' _ H'). apply in_app_iff. left. apply (In2 a b Hab).
      * destruct H as [<-|H], H' as [E'|H'].
        -- assert (Hz : z (a, b) <> z (a', b')). { intros X. apply Hne. rewrite Ei, Ei'. apply (f_equal hi_i) in X. exact X. }
           destruct (Zne _ _ Hab Hab' Hz) as (_ & _ & X). apply (X (nth a rs' 0)); cbn; [left; reflexivity|left; exact E'].
        -- refine (Ap2 i' _ Hi' _ H'). apply in_app_iff. left. apply (In2 a b Hab).
        -- subst r. refine (Ap2 i _ Hi _ H). apply in_app_iff. left. apply (In2 a' b' Hab').
        -- exact (Ap1 i i' r Hi Hi' Hne H H').
    + intros i r Hi Hin H. destruct (Past i Hi) as [P|(a & b & Hab & Ei & P)]; apply P in H.
      * exact (Ap2 i r Hi (Sub r Hin) H).
      * destruct H as [<-|H]; [exact (Unused a b Hab Hin)|exact (Ap2 i r Hi (Sub r Hin) H)].
  - intros i Hi Hf. destruct (in_dec Nat.eq_dec i (map h_obj (map (mk_hit M obs rs) pairs))) as [Hin|Hin].
    + apply in_map_iff in Hin as ([[k r] dd] & Ek & Hin). cbn in Ek. subst k. destruct (hf_hit _ _ _ _ HE i r dd Hin) as (o1 & Hrel & ->). cbn. rewrite (hr_init _ _ _ _ _ Hrel).
      destruct (mf_store _ _ _ Mf i) as [m ->]. cbn. rewrite Hf. reflexivity.
    + rewrite (hf_other _ _ _ _ HE i Hin). destruct (mf_store _ _ _ Mf i) as [m ->]. exact Hf.
Qed.

Definition mkm (M' : matrix N) (f g : nat -> nat) (obs obs' ks ks' : list nat) (s1 : st) (ab : nat * nat) : mitem (N:=N) :=
  (nth (g (snd ab)) obs 0, nth (f (fst ab)) ks 0, nth (snd ab) obs' 0, nth (fst ab) ks' 0, entry M' (fst ab) (snd ab),
   o_past (s_store s1 (nth (g (snd ab)) obs 0)) ++ o_past (s_store s1 (nth (f (fst ab)) ks 0))).
Definition mi_k (z : mitem (N:=N)) : nat := let '(_, k, _, _, _, _) := z in k.
Definition mi_l (z : mitem (N:=N)) : nat := let '(_, _, _, l, _, _) := z in l.

Lemma remove_all_mt L l l' a a' : oto L -> mt L l l' -> mt L a a' -> mt L (remove_all a l) (remove_all a' l').
Proof.
  intros HL M Ma. unfold remove_all. apply mt_filter; [exact M|]. intros i j Hij. f_equal. apply Bool.eq_iff_eq_true. rewrite !existsb_exists. split; intros (x & Hx & E); apply Nat.eqb_eq in E; subst x.
  - exists j. split; [apply (mt_iff _ _ _ Ma i j Hij), Hx|apply Nat.eqb_refl].
  - exists i. split; [apply (mt_iff _ _ _ Ma i j Hij), Hx|apply Nat.eqb_refl].
Qed.

Theorem phase_objs L rnd d thr s t obs obs' ks ks' p D s' out : rnd_ok rnd -> pairwise d -> osim L s t -> mt L obs obs' -> incl obs (s_tracked s) ->
  mt L ks ks' -> incl ks (s_tracked s) -> (forall i, In i obs -> ~ In i ks) -> apart s D ->
  (forall M, get_distances rnd d s obs (map CObj ks) = Ret M -> no_ties (List.length M) (ncols M) (entry M) thr) ->
  update_objects_in_place rnd d thr obs (map CObj ks) p s = (s', Ret out) ->
  exists t' out', update_objects_in_place rnd d thr obs' (map CObj ks') p t = (t', Ret out') /\ osim L s' t' /\ apart s' D /\ incl (s_tracked s') (s_tracked s).
Proof.
  intros Hr Hd S Mo Io Mk Ik Dj Ap Hnt E. pose proof (os_oto _ _ _ S) as HL.
  destruct (mt_arr _ HL _ _ Mo) as [g Ag0]. destruct (mt_arr _ HL _ _ Mk) as [f Af].
  assert (Ac : arr (cpair L) f (map CObj ks) (map CObj ks')).
  { destruct Af as (A1 & A2 & A3). split; [rewrite !map_length; exact A1|]. split; [rewrite map_length; exact A2|].
    intros a y Hy. rewrite nth_error_map in Hy. destruct (nth_error ks' a) as [r|] eqn:Er; [|discriminate]. injection Hy as <-. destruct (A3 a r Er) as (x & Ex & Hx).
    exists (CObj x). rewrite nth_error_map, Ex. split; [reflexivity|]. exact Hx. }
  destruct (phase_reordered laws L rnd d thr s t obs obs' (map CObj ks) (map CObj ks') f g p s' _ Hr Hd (os_world _ _ _ S) Ag0 Ac Hnt E)
    as (M & pairs & s1 & M' & pairs' & t1 & Ph & Ph' & Pm & Ent & H0 & H1).
  assert (Mg : merges (map (mk_hit M obs ks) pairs) s1 s').
  { destruct pairs as [|x pairs0].
    - destruct (H0 eq_refl) as [-> _]. constructor.
    - specialize (H1 ltac:(discriminate)). apply apply_matches_objs in H1; [|apply (ph_final _ _ _ _ _ _ _ _ _ Ph)]. exact H1. }
  clear H0 H1.
  destruct (ph_final _ _ _ _ _ _ _ _ _ Ph) as (O1 & R1 & B1 & _). destruct (ph_final _ _ _ _ _ _ _ _ _ Ph') as (O2 & R2 & B2 & _). rewrite map_length in R1, R2.
  pose proof (osim_min L _ _ _ _ _ _ S (ph_min _ _ _ _ _ _ _ _ _ Ph) (ph_min _ _ _ _ _ _ _ _ _ Ph')) as S1.
  pose proof (apart_min _ _ _ _ Ap (ph_min _ _ _ _ _ _ _ _ _ Ph)) as [Ap1 Ap2]. pose proof (ph_min _ _ _ _ _ _ _ _ _ Ph) as Mf. pose proof (ph_min _ _ _ _ _ _ _ _ _ Ph') as Mf'.
  rewrite <- (mf_tracked _ _ _ Mf) in Io, Ik. assert (Trk1 : s_tracked s1 = s_tracked s) by apply Mf.
  assert (Dj' : forall j, In j obs' -> ~ In j ks').
  { intros j Hj Hk. destruct (mt_r _ _ _ Mo j Hj) as [i Hi]. apply (Dj i); [apply (mt_iff _ _ _ Mo i j Hi), Hj|apply (mt_iff _ _ _ Mk i j Hi), Hk]. }
  set (z := mkm M' f g obs obs' ks ks' s1).
  assert (In2 : forall a b, In (a, b) pairs' -> In (nth (g b) obs 0, nth b obs' 0) L /\ In (nth (f a) ks 0, nth a ks' 0) L /\ g b < List.length obs /\ f a < List.length ks /\
     In (nth (g b) obs 0) obs /\ In (nth (f a) ks 0) ks /\ In (nth b obs' 0) obs' /\ In (nth a ks' 0) ks').
  { intros a b Hab. destruct (R2 a b Hab) as [Ha Hb]. destruct (nth_pair _ _ _ _ b 0 0 Ag0 Hb) as [X1 X2]. destruct (nth_pair _ _ _ _ a 0 0 Af Ha) as [X3 X4].
    repeat split; auto; apply nth_In; assumption. }
  assert (Zne : forall ab ab', In ab pairs' -> In ab' pairs' -> z ab <> z ab' -> apart_items mi_P mi_F (z ab) (z ab')).
  { intros [a b] [a' b'] H H' Hne. destruct (one_to_one_ne _ a b a' b' O2 H H') as [Na Nb]; [intros X; injection X as -> ->; apply Hne; reflexivity|].
    destruct (In2 a b H) as (Y1 & Y2 & Y3 & Y4 & Y5 & Y6 & Y7 & Y8). destruct (In2 a' b' H') as (Z1 & Z2 & Z3 & Z4 & Z5 & Z6 & Z7 & Z8).
    assert (Ni : nth (g b) obs 0 <> nth (g b') obs 0).
    { apply nth_ne; auto; [apply Mo|]. intros X. apply Nb. apply (proj1 (proj2 (proj1 (proj2 Ag0)))); auto; [apply (R2 a b H)|apply (R2 a' b' H')]. }
    assert (Nj : nth b obs' 0 <> nth b' obs' 0) by (apply nth_ne; auto; [apply Mo|apply (R2 a b H)|apply (R2 a' b' H')]).
    assert (Nk : nth (f a) ks 0 <> nth (f a') ks 0).
    { apply nth_ne; auto; [apply Mk|]. intros X. apply Na. apply (proj1 (proj2 (proj1 (proj2 Af)))); auto; [apply (R2 a b H)|apply (R2 a' b' H')]. }
    assert (Nl : nth a ks' 0 <> nth a' ks' 0) by (apply nth_ne; auto; [apply Mk|apply (R2 a b H)|apply (R2 a' b' H')]).
    assert (Oth : forall x y l l', In x l -> In y l' -> (forall i, In i l -> ~ In i l') -> (x : nat) <> y) by (intros x y l l' Hx Hy Hd0 ->; exact (Hd0 y Hx Hy)).
    pose proof (Oth _ _ _ _ Y5 Z6 Dj) as E1. pose proof (Oth _ _ _ _ Z5 Y6 Dj) as E2. pose proof (Oth _ _ _ _ Y7 Z8 Dj') as E3. pose proof (Oth _ _ _ _ Z7 Y8 Dj') as E4.
    unfold apart_items, z, mkm. cbn. split; [|split].
    - intros x [<-|[<-|[]]] [X|[X|[]]]; congruence.
    - intros x [<-|[<-|[]]] [X|[X|[]]]; congruence.
    - intros x Hx X. apply in_app_iff in Hx as [Hx|Hx]; apply in_app_iff in X as [X|X].
      + exact (Ap1 _ _ _ (Io _ Y5) (Io _ Z5) Ni Hx X).
      + exact (Ap1 _ _ _ (Io _ Y5) (Ik _ Z6) E1 Hx X).
      + exact (Ap1 _ _ _ (Ik _ Y6) (Io _ Z5) (not_eq_sym E2) Hx X).
      + exact (Ap1 _ _ _ (Ik _ Y6) (Ik _ Z6) Nk Hx X). }
  assert (E1 : map mi_1 (map z pairs') = map (mk_hit M obs ks) (map (swap f g) pairs')).
  { rewrite !map_map. apply map_ext_in. intros [a b] Hab. unfold z, mkm, mk_hit, swap. cbn. rewrite (Ent a b Hab). reflexivity. }
  assert (E2 : map mi_2 (map z pairs') = map (mk_hit M' obs' ks') pairs') by (rewrite map_map; reflexivity).
  assert (Pm' : Permutation (map (mk_hit M obs ks) pairs) (map mi_1 (map z pairs'))) by (rewrite E1; apply Permutation_map, Pm).
  apply Permutation_map_inv in Pm' as (l & El & Pl).
  assert (NdJ : NoDup (map (fun q => nth (snd q) obs' 0) pairs')).
  { clear - O2 R2 Mo. destruct O2 as [_ O2]. induction pairs' as [|[a b] l IH]; cbn; [constructor|].
    cbn in O2. inversion O2 as [|? ? Hn O3]; subst. constructor.
    - intros H. apply in_map_iff in H as ([a' b'] & E & H). cbn in E. apply Hn. replace b with b'; [apply (in_map snd) in H; exact H|].
      apply (proj1 (NoDup_nth obs' 0) (mt_nd' _ _ _ Mo)); [apply (R2 a' b'); right; exact H|apply (R2 a b); left; reflexivity|exact E].
    - apply IH; [exact O3|]. intros x y H. apply R2. right. exact H. }
  assert (NdZ : NoDup (map z pairs')).
  { apply (NoDup_map_inv (fun x => h_obj (mi_2 x))). rewrite map_map. exact NdJ. }
  rewrite El in Mg.
  assert (InZ : forall x, In x l -> exists a b, In (a, b) pairs' /\ x = z (a, b)).
  { intros x Hx. apply (Permutation_in _ (Permutation_sym Pl)) in Hx. apply in_map_iff in Hx as ([a b] & <- & H). eauto. }
  destruct (merges_any_order l (map z pairs') s1 s' t1 Mg) as (t' & Mg' & G & Out1 & Out2).
  { eapply Permutation_NoDup; eauto. }
  { intros x x' Hx Hx' Hne. destruct (InZ x Hx) as (a & b & H & ->). destruct (InZ x' Hx') as (a' & b' & H' & ->). apply Zne; auto. }
  { apply Permutation_sym, Pl. }
  { intros x Hx. destruct (InZ x Hx) as (a & b & H & ->). destruct (In2 a b H) as (Y1 & Y2 & _ & _ & Y5 & Y6 & Y7 & Y8). split.
    - intros i j Hij. unfold z, mkm in Hij |- *. cbn in Hij |- *. destruct Hij as [X|[X|[]]]; injection X as <- <-; split.
      + apply (sw_obj _ _ _ (os_world _ _ _ S1)). exact Y1. + intros q Hq. apply in_app_iff. left. exact Hq. + intros q _. apply (sw_heap _ _ _ (os_world _ _ _ S1)).
      + apply (sw_obj _ _ _ (os_world _ _ _ S1)). exact Y2. + intros q Hq. apply in_app_iff. right. exact Hq. + intros q _. apply (sw_heap _ _ _ (os_world _ _ _ S1)).
    - unfold mi_X, z, mkm. cbn. split; [|split].
      + apply (mt_iff _ _ _ (os_trk _ _ _ S1) _ _ Y2), Ik, Y6.
      + intros X. rewrite X in Y5. exact (Dj _ Y5 Y6).
      + intros X. rewrite X in Y7. exact (Dj' _ Y7 Y8). }
  rewrite E2 in Mg'.
  assert (Hmk : map h_det (map mi_1 l) = map mi_k l) by (rewrite map_map; apply map_ext; intros [[[[[? ?] ?] ?] ?] ?]; reflexivity).
  assert (Hmi : map h_obj (map mi_1 l) = map (fun x => h_obj (mi_1 x)) l) by (rewrite map_map; reflexivity).
  assert (MtK : mt L (map mi_k l) (map mi_l (map z pairs'))).
  { apply (mt_of L HL _ (map mi_k (map z pairs'))); [apply Permutation_map, Permutation_sym, Pl| |].
    - rewrite !map_map. clear - In2. induction pairs' as [|[a b] l IH]; cbn; constructor; [apply (In2 a b); left; reflexivity|apply IH; intros; apply In2; right; assumption].
    - apply (Permutation_NoDup (Permutation_map mi_k Pl)). rewrite map_map. clear - O2 R2 Mk Af In2. destruct O2 as [O2 _]. induction pairs' as [|[a b] l IH]; cbn; [constructor|].
      cbn in O2. inversion O2 as [|? ? Hn O3]; subst. constructor.
      + intros H. apply in_map_iff in H as ([a' b'] & E & H). cbn in E. apply Hn. replace a with a'; [apply (in_map fst) in H; exact H|].
        apply (proj1 (NoDup_nth ks 0) (mt_nd _ _ _ Mk)) in E; [|apply (In2 a' b'); right; exact H|apply (In2 a b); left; reflexivity].
        apply (proj1 (proj2 (proj1 (proj2 Af)))); auto; [apply (R2 a' b'); right; exact H|apply (R2 a b); left; reflexivity].
      + apply IH; [exact O3| |]; [intros x y H; apply R2|intros x y H; apply In2]; right; exact H. }
  assert (MtI : mt L (map (fun x => h_obj (mi_1 x)) l) (map (fun q => nth (snd q) obs' 0) pairs')).
  { apply (mt_of L HL _ (map (fun x => h_obj (mi_1 x)) (map z pairs'))); [apply Permutation_map, Permutation_sym, Pl| |].
    - rewrite !map_map. clear - In2. induction pairs' as [|[a b] l IH]; cbn; constructor; [apply (In2 a b); left; reflexivity|apply IH; intros; apply In2; right; assumption].
    - apply (Permutation_NoDup (Permutation_map (fun x => h_obj (mi_1 x)) Pl)). rewrite map_map.
      apply (F2_nd' L HL _ (map (fun q => nth (snd q) obs' 0) pairs')); [|exact NdJ].
      clear - In2. induction pairs' as [|[a b] l IH]; cbn; constructor; [apply (In2 a b); left; reflexivity|apply IH; intros; apply In2; right; assumption]. }
  pose proof Mg as HE. apply merges_effect in HE; [| rewrite Hmi; apply MtI | apply S1 |].
  2:{ rewrite Hmi, Hmk. intros i Hi Hk. apply in_map_iff in Hi as (x & <- & Hx). apply in_map_iff in Hk as (y & Ey & Hy). destruct (InZ x Hx) as (a & b & H & ->). destruct (InZ y Hy) as (a' & b' & H' & ->).
      cbn in Ey. apply (Dj (nth (g b) obs 0)); [apply (In2 a b H)|]. rewrite <- Ey. apply (In2 a' b' H'). }
  pose proof Mg' as HE'. apply merges_effect in HE'; [| rewrite map_map; exact NdJ | apply (os_trk _ _ _ S1) |].
  2:{ rewrite !map_map. intros i Hi Hk. apply in_map_iff in Hi as ([a b] & <- & H). apply in_map_iff in Hk as ([a' b'] & Ey & H'). cbn in Ey.
      apply (Dj' (nth b obs' 0)); [apply (In2 a b H)|]. rewrite <- Ey. apply (In2 a' b' H'). }
  assert (Tr' : s_tracked s' = remove_all (map mi_k l) (s_tracked s1)) by (rewrite (gf_tracked _ _ _ HE), Hmk; reflexivity).
  assert (Tr2 : s_tracked t' = remove_all (map mi_l (map z pairs')) (s_tracked t1)) by (rewrite (gf_tracked _ _ _ HE'), !map_map; reflexivity).
  assert (Sub : forall i, In i (s_tracked s') -> In i (s_tracked s1) /\ ~ In i (map mi_k l)).
  { intros i Hi. rewrite Tr' in Hi. unfold remove_all in Hi. apply filter_In in Hi as [Hi Hn]. split; [exact Hi|]. intros X. apply negb_true_iff in Hn.
    assert (Y : existsb (Nat.eqb i) (map mi_k l) = true) by (apply existsb_exists; exists i; split; [exact X|apply Nat.eqb_refl]). congruence. }
  set (out' := (not_in_idxs (map fst pairs') 0 (map (CObj) ks') : list cand, [] : list nat, not_in_idxs (map snd pairs') 0 obs')).
  exists t', out'. split; [|split; [|split]].
  - apply (uip_forward laws rnd d thr obs' (map CObj ks') p t M' pairs' t1 t' _ Ph'); [| |exact Hr].
    + intros ->. cbn in Mg'. inversion Mg'; subst. unfold out'. cbn. rewrite !not_in_idxs_nil. auto.
    + intros _. apply (apply_matches_objs_forward thr M' obs' ks' p pairs' _ [] _ t1 t' B2 R2 Mg').
  - split.
    + split.
      * intros r. destruct (in_dec Nat.eq_dec r (flat_map mi_F l)) as [Hq|Hq].
        -- apply in_flat_map in Hq as (x & Hx & Hq). destruct x as [[[[[i k] j] q] dd] F]. apply (lc_heap _ _ _ _ _ (G _ Hx i j (or_introl eq_refl)) r Hq).
        -- rewrite (ou_heap _ _ _ _ Out1 r Hq). rewrite (ou_heap _ _ _ _ Out2 r); [apply (sw_heap _ _ _ (os_world _ _ _ S1))|].
           intros X. apply Hq. apply in_flat_map in X as (x & Hx & X). apply in_flat_map. exists x. split; [|exact X]. eapply Permutation_in; eauto.
      * intros i j Hij. destruct (in_dec Nat.eq_dec i (flat_map (fun x => map fst (mi_P x)) l)) as [Hi|Hi].
        -- apply in_flat_map in Hi as (x & Hx & Hi). apply in_map_iff in Hi as ([i' j'] & Ei & Hp). cbn in Ei. subst i'.
           pose proof (lc_obj _ _ _ _ _ (G x Hx i j' Hp)) as Ea. replace j with j'; [exact Ea|].
           destruct (InZ x Hx) as (a & b & H & ->). destruct (In2 a b H) as (Y1 & Y2 & _). unfold z, mkm in Hp. cbn in Hp.
           destruct Hp as [X|[X|[]]]; injection X as <- <-; [apply (HL _ _ _ _ Y1 Hij)|apply (HL _ _ _ _ Y2 Hij)]; reflexivity.
        -- rewrite (ou_store _ _ _ _ Out1 i Hi). rewrite (ou_store _ _ _ _ Out2 j); [apply (sw_obj _ _ _ (os_world _ _ _ S1)), Hij|].
           intros Hj. apply Hi. apply in_flat_map in Hj as (x & Hx & Hj). apply in_flat_map. exists x. split; [eapply Permutation_in; eauto|].
           apply in_map_iff in Hx as ([a b] & <- & H). destruct (In2 a b H) as (Y1 & Y2 & _). unfold z, mkm in Hj |- *. cbn in Hj |- *.
           destruct Hj as [X|[X|[]]]; subst j; [left|right; left]; [apply (HL _ _ _ _ Y1 Hij)|apply (HL _ _ _ _ Y2 Hij)]; reflexivity.
    + exact HL.
    + rewrite (gf_icount _ _ _ HE). apply S1.
    + rewrite (gf_icount _ _ _ HE'). apply S1.
    + rewrite Tr', Tr2. apply remove_all_mt; [exact HL|apply S1|exact MtK].
  - (* past detections *)
    assert (Past : forall i, In i (s_tracked s') -> incl (o_past (s_store s' i)) (o_past (s_store s1 i)) \/
      exists a b, In (a, b) pairs' /\ i = nth (g b) obs 0 /\ incl (o_past (s_store s' i)) (mi_F (z (a, b)))).
    { intros i Hi. destruct (Sub i Hi) as [Hi1 Hi2]. destruct (in_dec Nat.eq_dec i (map (fun x => h_obj (mi_1 x)) l)) as [Hin|Hin].
      - right. apply in_map_iff in Hin as (x & Ex & Hx). destruct (InZ x Hx) as (a & b & H & ->). cbn in Ex. exists a, b. split; [exact H|]. split; [auto|].
        rewrite <- Ex. exact (lc_past _ _ _ _ _ (G _ Hx (nth (g b) obs 0) (nth b obs' 0) (or_introl eq_refl))).
      - left. rewrite (gf_other _ _ _ HE i); [apply incl_refl|]. rewrite Hmi. exact Hin. }
    assert (Cases : forall i, In i (s_tracked s') -> exists js, (forall r, In r (o_past (s_store s' i)) -> exists k, In k js /\ In r (o_past (s_store s1 k))) /\ incl js (s_tracked s1) /\
      (forall k, In k js -> k = i \/ exists a b, In (a, b) pairs' /\ i = nth (g b) obs 0 /\ k = nth (f a) ks 0)).
    { intros i Hi. destruct (Sub i Hi) as [Hi1 _]. destruct (Past i Hi) as [P|(a & b & Hab & Ei & P)].
      - exists [i]. split; [intros r Hr0; exists i; split; [left; reflexivity|apply P, Hr0]|]. split; [intros k [<-|[]]; exact Hi1|]. intros k [<-|[]]. left. reflexivity.
      - exists [i; nth (f a) ks 0]. split; [|split].
        + intros r Hr0. apply P in Hr0. unfold z, mkm in Hr0. cbn in Hr0. rewrite <- Ei in Hr0. apply in_app_iff in Hr0 as [X|X]; [exists i|exists (nth (f a) ks 0)]; (split; [cbn; auto|exact X]).
        + intros k [<-|[<-|[]]]; [exact Hi1|]. apply Ik, (In2 a b Hab).
        + intros k [<-|[<-|[]]]; [left; reflexivity|right]. exists a, b. auto. }
    split.
    + intros i i' r Hi Hi' Hne H H'. destruct (Cases i Hi) as (js & C1 & C2 & C3). destruct (Cases i' Hi') as (js' & C1' & C2' & C3').
      destruct (C1 r H) as (k & Hk & Hkr). destruct (C1' r H') as (k' & Hk' & Hkr').
      assert (Hkk : k <> k').
      { intros <-. destruct (Sub i Hi) as [_ N1]. destruct (Sub i' Hi') as [_ N2].
        assert (InK : forall a b, In (a, b) pairs' -> In (nth (f a) ks 0) (map mi_k l)).
        { intros a b Hab. apply in_map_iff. exists (z (a, b)). split; [reflexivity|]. apply (Permutation_in _ Pl). apply in_map, Hab. }
        destruct (C3 k Hk) as [->|(a & b & Hab & Ei & Ek)]; destruct (C3' _ Hk') as [Ek'|(a' & b' & Hab' & Ei' & Ek')].
        - exact (Hne Ek').
        - apply N1. rewrite Ek'. eapply InK; eauto.
        - apply N2. rewrite <- Ek', Ek. eapply InK; eauto.
        - rewrite Ek in Ek'. destruct (In2 a b Hab) as (_ & _ & _ & V1 & _). destruct (In2 a' b' Hab') as (_ & _ & _ & V2 & _).
          apply (proj1 (NoDup_nth ks 0) (mt_nd _ _ _ Mk) _ _ V1 V2) in Ek'.
          apply (proj1 (proj2 (proj1 (proj2 Af)))) in Ek'; [|apply (R2 a b Hab)|apply (R2 a' b' Hab')]. subst a'.
          destruct (Nat.eq_dec b b') as [->|Nb]; [apply Hne; congruence|]. destruct (one_to_one_ne _ a b a b' O2 Hab Hab') as [X _]; [congruence|]. apply X. reflexivity. }
      exact (Ap1 k k' r (C2 k Hk) (C2' k' Hk') Hkk Hkr Hkr').
    + intros i r Hi Hin H. destruct (Cases i Hi) as (js & C1 & C2 & C3). destruct (C1 r H) as (k & Hk & Hkr). exact (Ap2 k r (C2 k Hk) Hin Hkr).
  - intros i Hi. rewrite <- Trk1. apply (Sub i Hi).
Qed.
End Ph.

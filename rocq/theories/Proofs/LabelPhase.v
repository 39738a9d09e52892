(** One association phase of two trackers, one of which sees only some of the detections.  Used for C84 and C104. *)
From Coq Require Import ZArith Bool Arith String List Lia.
From Verif Require Import Model.Num Model.Base Model.Matching Model.Filter Model.Tracker Spec.MatchingSpec Spec.CallSpec Spec.ExampleVideo Spec.LabelSpec
  Proofs.MatchingProofs Proofs.GreedyProofs Proofs.GreedySub Proofs.TrackerFrame Proofs.Effect Proofs.CallEffect Proofs.LabelSim.
Import ListNotations.

(** ** Lists *)
Lemma Forall2_nth {A B} (R : A -> B -> Prop) l l' (a0 : A) (b0 : B) : Forall2 R l l' -> forall k, k < length l -> R (nth k l a0) (nth k l' b0).
Proof. induction 1; intros [|k] Hk; cbn in *; try lia; auto. apply IHForall2. lia. Qed.
Lemma Forall2_len {A B} (R : A -> B -> Prop) l l' : Forall2 R l l' -> length l = length l'.
Proof. induction 1; cbn; auto. Qed.
Lemma Forall2_app' {A B} (R : A -> B -> Prop) a a' b b' : Forall2 R a a' -> Forall2 R b b' -> Forall2 R (a ++ b) (a' ++ b').
Proof. induction 1; cbn; auto. Qed.
Lemma Forall2_map_in {A B C} (R : B -> C -> Prop) (f : A -> B) (g : A -> C) l : (forall a, In a l -> R (f a) (g a)) -> Forall2 R (map f l) (map g l).
Proof. induction l; cbn; intros H; constructor; auto. Qed.
Lemma filter_map_comm {A B} (f : A -> B) p l : filter p (map f l) = map f (filter (fun a => p (f a)) l).
Proof. induction l as [|x l IH]; [reflexivity|]. cbn. destruct (p (f x)); cbn; rewrite IH; reflexivity. Qed.
Lemma filter_comm {A} (p q : A -> bool) l : filter p (filter q l) = filter q (filter p l).
Proof.
  induction l as [|x l IH]; [reflexivity|]. cbn. destruct (q x) eqn:Q, (p x) eqn:Pp; cbn; rewrite ?Q, ?Pp, IH; reflexivity.
Qed.
Lemma filter_none {A} (p : A -> bool) l : (forall a, In a l -> p a = false) -> filter p l = [].
Proof. induction l as [|x l IH]; intros H; [reflexivity|]. cbn. rewrite (H x (or_introl eq_refl)). apply IH. intros; apply H; right; assumption. Qed.

(** Position [k] of the selected elements is position [pos sel l k] of the list. *)
Definition pos {A} (sel : A -> bool) (l : list A) (k : nat) : nat := match l with [] => 0 | d :: _ => nth k (positions sel l d) 0 end.
Lemma positions_dflt {A} (sel : A -> bool) l d d' : positions sel l d = positions sel l d'.
Proof. unfold positions. apply filter_ext_in. intros k Hk. apply in_seq in Hk. rewrite (nth_indep l d d') by lia. reflexivity. Qed.
Lemma pos_eq {A} (sel : A -> bool) l d k : l <> [] -> pos sel l k = nth k (positions sel l d) 0.
Proof. destruct l as [|x l]; [contradiction|]. intros _. unfold pos. rewrite (positions_dflt _ _ x d). reflexivity. Qed.
Lemma pos_spec {A} (sel : A -> bool) l d k : k < length (filter sel l) ->
  pos sel l k < length l /\ sel (nth (pos sel l k) l d) = true /\ nth (pos sel l k) l d = nth k (filter sel l) d.
Proof.
  intros Hk. assert (Hne : l <> []) by (intros ->; cbn in Hk; lia). rewrite (pos_eq sel l d k Hne).
  assert (Hk' : k < length (positions sel l d)) by (rewrite positions_length; exact Hk).
  pose proof (proj1 (positions_in sel l d _) (nth_In _ 0 Hk')) as [H1 H2]. split; [exact H1|split; [exact H2|]].
  rewrite <- (positions_filter sel l d). symmetry. set (F := fun k => nth k l d).
  transitivity (nth k (map F (positions sel l d)) (F 0)); [apply nth_indep; rewrite map_length; exact Hk'|apply (map_nth F)].
Qed.
Lemma pos_increasing {A} (sel : A -> bool) l : increasing (pos sel l) (seq 0 (length (filter sel l))).
Proof.
  destruct l as [|d l]; [intros x y Hx; cbn in Hx; contradiction|]. apply (positions_increasing sel (d :: l) d).
Qed.
Lemma pos_seq {A} (sel : A -> bool) l d : filter (fun k => sel (nth k l d)) (seq 0 (length l)) = map (pos sel l) (seq 0 (length (filter sel l))).
Proof.
  destruct l as [|x l]; [reflexivity|]. change (filter (fun k => sel (nth k (x :: l) d)) (seq 0 (length (x :: l)))) with (positions sel (x :: l) d). rewrite (positions_dflt _ _ d x).
  rewrite <- (positions_length sel (x :: l) x). apply list_as_map.
Qed.

(** Dropping corresponding positions. *)
Lemma not_in_related {A B} (R : A -> B -> Prop) (sel : A -> bool) l1 l2 I1 I2 : Forall2 R (filter sel l1) l2 ->
  (forall k, k < length l2 -> (In (pos sel l1 k) I1 <-> In k I2)) ->
  Forall2 R (filter sel (not_in_idxs I1 0 l1)) (not_in_idxs I2 0 l2).
Proof.
  intros F H. destruct l1 as [|a0 l1']; [cbn in F; inversion F; subst; constructor|]. set (l1 := a0 :: l1') in *. clearbody l1.
  destruct l2 as [|b0 l2'].
  { inversion F as [E|]. cbn. rewrite (not_in_idxs_seq I1 a0 l1 0), filter_map_comm. rewrite filter_none; [constructor|].
    intros q Hq. rewrite Nat.sub_0_r. apply filter_In in Hq as [Hq _]. apply in_seq in Hq. destruct (sel (nth q l1 a0)) eqn:X; [|reflexivity].
    assert (Y : In (nth q l1 a0) (filter sel l1)) by (apply filter_In; split; [apply nth_In; lia|exact X]). rewrite <- E in Y. destruct Y. }
  set (l2 := b0 :: l2') in *. clearbody l2. pose proof (Forall2_len _ _ _ F) as Hl.
  rewrite (not_in_idxs_seq I1 a0 l1 0), (not_in_idxs_seq I2 b0 l2 0), filter_map_comm, filter_comm.
  rewrite (filter_ext (fun a => sel (nth (a - 0) l1 a0)) (fun k => sel (nth k l1 a0))) by (intros a; rewrite Nat.sub_0_r; reflexivity).
  rewrite pos_seq, filter_map_comm, map_map, Hl.
  rewrite (filter_ext_in (fun a => negb (existsb (Nat.eqb (pos sel l1 a)) I1)) (fun q => negb (existsb (Nat.eqb q) I2))).
  - apply Forall2_map_in. intros k Hk. apply filter_In in Hk as [Hk _]. apply in_seq in Hk. rewrite !Nat.sub_0_r.
    destruct (pos_spec sel l1 a0 k) as (_ & _ & ->); [lia|]. apply Forall2_nth; [exact F|lia].
  - intros k Hk. apply in_seq in Hk. f_equal. apply eq_true_iff_eq. change (inb (pos sel l1 k) I1 = true <-> inb k I2 = true). rewrite !inb_In. apply H. lia.
Qed.

Section Phase.
Context {N : Num} (laws : NumLaws N) {FO : filter_ops N}.
Notation st := (st FO).
Variable P : option (label -> bool).
Variable cls : nat -> bool.
Variable L : list (nat * nat).
Notation sim := (sim (FO:=FO) P cls L).
Notation agree := (agree (FO:=FO) P cls L).
Notation chosen := (chosen L).

Definition csel (c : cand) : bool := match c with CDet r => cls r | CObj i => chosen i end.
Definition crel (c1 c2 : cand) : Prop :=
  match c1, c2 with
  | CDet r, CDet r' => r = r' /\ cls r = true
  | CObj i, CObj j => In (i, j) L
  | _, _ => False
  end.
Definition cknown (s : st) (c : cand) : Prop := match c with CDet _ => True | CObj i => 1 <= i <= s_icount s end.
Definition relC (l1 l2 : list cand) : Prop := Forall2 crel (filter csel l1) l2.
Definition relO (l1 l2 : list nat) : Prop := Forall2 (pairL L) (filter chosen l1) l2.

Lemma relC_app a a' b b' : relC a a' -> relC b b' -> relC (a ++ b) (a' ++ b').
Proof. unfold relC. rewrite filter_app. apply Forall2_app'. Qed.
Lemma relO_app a a' b b' : relO a a' -> relO b b' -> relO (a ++ b) (a' ++ b').
Proof. unfold relO. rewrite filter_app. apply Forall2_app'. Qed.

Lemma filter_rmf (p : nat -> bool) x l : p x = true -> filter p (remove_first x l) = remove_first x (filter p l).
Proof.
  intros Hx. induction l as [|y l IH]; [reflexivity|]. cbn. destruct (Nat.eqb_spec y x) as [->|Hne].
  - rewrite Hx. cbn. rewrite Nat.eqb_refl. reflexivity.
  - cbn. destruct (p y); cbn; [destruct (Nat.eqb_spec y x); [contradiction|]|]; rewrite IH; reflexivity.
Qed.
Lemma filter_rmf_not (p : nat -> bool) x l : p x = false -> filter p (remove_first x l) = filter p l.
Proof.
  intros Hx. induction l as [|y l IH]; [reflexivity|]. cbn. destruct (Nat.eqb_spec y x) as [->|Hne].
  - rewrite Hx. reflexivity.
  - cbn. rewrite IH. reflexivity.
Qed.
Lemma sim_tracked s1 s2 l1 l2 : sim s1 s2 -> Forall (fun i => 1 <= i <= s_icount s1) l1 -> relO l1 l2 -> sim (s_set_tracked l1 s1) (s_set_tracked l2 s2).
Proof. intros [A B C D E F G H I J K] K1 K2. split; cbn; auto. Qed.
Lemma s_set_tracked_same (s : st) : s_set_tracked (s_tracked s) s = s.
Proof. destruct s. reflexivity. Qed.
Lemma remove_first_rel s1 s2 i j l1 l2 : sim s1 s2 -> In (i, j) L -> Forall2 (pairL L) l1 l2 ->
  existsb (Nat.eqb i) l1 = existsb (Nat.eqb j) l2 /\ Forall2 (pairL L) (remove_first i l1) (remove_first j l2).
Proof.
  intros S Hij F. induction F as [|a b l1 l2 H F IH]; [split; [reflexivity|constructor]|]. cbn.
  pose proof (sm_inj _ _ _ _ _ S _ _ _ _ Hij H) as X. rewrite (Nat.eqb_sym i a), (Nat.eqb_sym j b).
  destruct (Nat.eqb_spec a i) as [->|Ha], (Nat.eqb_spec b j) as [->|Hb]; cbn.
  - split; [reflexivity|exact F].
  - destruct Hb. symmetry. apply X. reflexivity.
  - destruct Ha. symmetry. apply X. reflexivity.
  - destruct IH as [IH1 IH2]. split; [exact IH1|constructor; auto].
Qed.
Lemma remove_first_incl x l : incl (remove_first x l) l.
Proof. induction l as [|y l IH]; cbn; [intros a []|]. destruct (Nat.eqb y x); intros a Ha; [right; exact Ha|]. destruct Ha as [->|Ha]; [left; reflexivity|right; apply IH, Ha]. Qed.

Lemma hit_icount i r p (s : st) : s_icount (fst (hit i r p s)) = s_icount s.
Proof.
  unfold hit. pose proof (proj1 (cond_add_past_counts i r s)) as H. destruct (cond_add_past i r s) as [t [u|e]]; cbn [fst] in H; [|exact H].
  set (s2 := mod_obj i _ (mod_obj i _ t)). assert (H2 : s_icount s2 = s_icount s) by exact H. clearbody s2. clear H t.
  match goal with |- context [if ?b then acquire_ids i ?x else s2] => set (s3 := if b then acquire_ids i x else s2) end. assert (H3 : s_icount s3 = s_icount s) by (subst s3; destruct (_ && _)%bool; exact H2). clearbody s3.
  destruct (negb _); [exact H3|]. destruct (_ || _)%bool; [exact H3|]. destruct (negb _); exact H3.
Qed.
Lemma add_pasts_icount i rs : forall s : st, s_icount (fst (add_pasts i rs s)) = s_icount s.
Proof.
  induction rs as [|r rs IH]; intros s; [reflexivity|]. cbn. pose proof (proj1 (cond_add_past_counts i r s)) as H.
  destruct (cond_add_past i r s) as [t [u|e]]; cbn [fst] in H; [rewrite IH|]; exact H.
Qed.
Lemma merge_icount i k (s : st) : s_icount (fst (merge i k s)) = s_icount s.
Proof. unfold merge. rewrite add_pasts_icount. reflexivity. Qed.

(** ** The loop over the matched pairs *)
Section Loop.
Variables (thr : dval N) (M M' : matrix N) (obs1 obs2 : list nat) (cs1 cs2 : list cand) (p : Z).
Inductive follows : list (nat * nat) -> list (nat * nat) -> Prop :=
| fo_nil : follows [] []
| fo_skip ci oi c i l l' : nth_error cs1 ci = Some c -> nth_error obs1 oi = Some i -> csel c = false -> chosen i = false ->
    follows l l' -> follows ((ci, oi) :: l) l'
| fo_keep ci oi c i ci' oi' c' i' l l' : nth_error cs1 ci = Some c -> nth_error obs1 oi = Some i ->
    nth_error cs2 ci' = Some c' -> nth_error obs2 oi' = Some i' -> crel c c' -> In (i, i') L ->
    entry M ci oi = entry M' ci' oi' -> follows l l' -> follows ((ci, oi) :: l) ((ci', oi') :: l').

Lemma sim_matches pairs1 pairs2 : follows pairs1 pairs2 -> forall uc1 mo1 uo1 uc2 mo2 uo2 s1 s2 s1' uc' mo' uo',
  sim s1 s2 -> Forall (cknown s1) cs1 -> relC uc1 uc2 -> relO mo1 mo2 -> relO uo1 uo2 ->
  apply_matches thr M obs1 cs1 p pairs1 uc1 mo1 uo1 s1 = (s1', Ret (uc', mo', uo')) ->
  s_icount s1' = s_icount s1 /\
  exists s2' uc2' mo2' uo2', apply_matches thr M' obs2 cs2 p pairs2 uc2 mo2 uo2 s2 = (s2', Ret (uc2', mo2', uo2')) /\
    sim s1' s2' /\ relC uc' uc2' /\ relO mo' mo2' /\ relO uo' uo2'.
Proof.
  induction 1 as [|ci oi c i l l' Hc Hi Sc Si F IH|ci oi c i ci' oi' c' i' l l' Hc Hi Hc' Hi' Rc Ri Em F IH];
    intros uc1 mo1 uo1 uc2 mo2 uo2 s1 s2 s1' uc' mo' uo' S K RC RM RO E.
  - cbn in E. injection E as <- <- <- <-. split; [reflexivity|]. eexists _, _, _, _. split; [reflexivity|]. auto.
  - cbn [apply_matches] in E. rewrite Hc, Hi in E. destruct (dltb (entry M ci oi) thr).
    + destruct c as [r|k]; cbn in Sc.
      * pose proof (frame_hit P cls L i r p s1 s2 Si Sc S) as S'. pose proof (hit_icount i r p s1) as Hn.
        destruct (hit i r p s1) as [t1 [u|e]]; [|discriminate]. cbn [fst] in S', Hn.
        apply IH with (uc2 := uc2) (mo2 := mo2) (uo2 := uo2) (s2 := s2) in E; auto.
        -- destruct E as [E1 E2]. split; [cbn in E1; congruence|exact E2].
        -- apply sim_plain_frame; auto. apply plain_dist.
        -- eapply Forall_impl; [|exact K]. intros [?|?]; cbn; lia.
        -- unfold relO. rewrite filter_app. cbn. rewrite Si, app_nil_r. exact RM.
      * assert (Kk : cknown s1 (CObj k)) by (rewrite Forall_forall in K; eapply K, nth_error_In, Hc). cbn in Kk.
        pose proof (frame_merge P cls L i k s1 s2 Si Sc Kk S) as S'. pose proof (merge_icount i k s1) as Hn.
        destruct (merge i k s1) as [t1 [u|e]]; [|discriminate]. cbn [fst] in S', Hn. destruct (existsb _ _); [|discriminate].
        apply IH with (uc2 := uc2) (mo2 := mo2) (uo2 := uo2) (s2 := s2) in E; auto.
        -- destruct E as [E1 E2]. split; [cbn in E1; congruence|exact E2].
        -- rewrite <- (s_set_tracked_same s2). apply sim_tracked; auto.
           ++ pose proof (sm_known _ _ _ _ _ S') as X. rewrite Forall_forall in X |- *. intros a Ha. apply X. eapply remove_first_incl, Ha.
           ++ unfold relO. rewrite filter_rmf_not by exact Sc. exact (sm_trk _ _ _ _ _ S').
        -- eapply Forall_impl; [|exact K]. intros [?|?]; cbn; lia.
    + apply IH with (uc2 := uc2) (mo2 := mo2) (uo2 := uo2) (s2 := s2) in E; auto.
      * unfold relC. rewrite filter_app. cbn. rewrite Sc, app_nil_r. exact RC.
      * unfold relO. rewrite filter_app. cbn. rewrite Si, app_nil_r. exact RO.
  - cbn [apply_matches] in E |- *. rewrite Hc, Hi in E. rewrite Hc', Hi', <- Em. destruct (dltb (entry M ci oi) thr).
    + destruct c as [r|k], c' as [r'|k']; cbn in Rc; try contradiction.
      * destruct Rc as [<- Or]. pose proof (sim_hit P cls L i i' r p s1 s2 Ri Or S) as [E' S']. pose proof (hit_icount i r p s1) as Hn.
        destruct (hit i r p s1) as [t1 [u|e]]; [|discriminate]. destruct (hit i' r p s2) as [t2 [u'|e']]; cbn [fst snd] in E', S', Hn; [|discriminate].
        eapply IH in E; cycle 1.
        -- apply sim_plain; [apply plain_dist|exact S'|exact Ri].
        -- eapply Forall_impl; [|exact K]. intros [?|?]; cbn; lia.
        -- exact RC.
        -- apply relO_app; [exact RM|]. unfold relO. cbn. rewrite (chosen_in _ _ _ Ri). constructor; [exact Ri|constructor].
        -- exact RO.
        -- destruct E as [E1 E2]. split; [cbn in E1; congruence|exact E2].
      * pose proof (sim_merge P cls L i i' k k' s1 s2 Ri Rc S) as [E' S']. pose proof (merge_icount i k s1) as Hn.
        destruct (merge i k s1) as [t1 [u|e]]; [|discriminate]. destruct (merge i' k' s2) as [t2 [u'|e']]; cbn [fst snd] in E', S', Hn; [|discriminate].
        destruct (existsb (Nat.eqb k) (s_tracked t1)) eqn:X; [|discriminate].
        destruct (remove_first_rel t1 t2 k k' _ _ S' Rc (sm_trk _ _ _ _ _ S')) as [Y1 Y2].
        assert (Z : existsb (Nat.eqb k) (filter chosen (s_tracked t1)) = true).
        { apply inb_In, filter_In. split; [apply inb_In, X|apply (chosen_in _ _ _ Rc)]. }
        rewrite <- Y1, Z. eapply IH in E; cycle 1.
        -- apply sim_tracked with (l2 := remove_first k' (s_tracked t2)); [exact S'| |].
           ++ pose proof (sm_known _ _ _ _ _ S') as W. rewrite Forall_forall in W |- *. intros a Ha. apply W. eapply remove_first_incl, Ha.
           ++ unfold relO. rewrite filter_rmf by apply (chosen_in _ _ _ Rc). exact Y2.
        -- eapply Forall_impl; [|exact K]. intros [?|?]; cbn; lia.
        -- exact RC.
        -- exact RM.
        -- exact RO.
        -- destruct E as [E1 E2]. split; [cbn in E1; congruence|exact E2].
    + eapply IH in E; [exact E|exact S|exact K| |exact RM|].
      * apply relC_app; [exact RC|]. unfold relC. cbn. assert (X : csel c = true).
        { destruct c, c'; cbn in Rc |- *; try contradiction; [apply Rc|apply (chosen_in _ _ _ Rc)]. }
        rewrite X. constructor; [exact Rc|constructor].
      * apply relO_app; [exact RO|]. unfold relO. cbn. rewrite (chosen_in _ _ _ Ri). constructor; [exact Ri|constructor].
Qed.

(** The pairs of the second tracker, from those of the first. *)
Lemma make_follows c0 pairs : forall Q,
  (forall ci oi, In (ci, oi) pairs -> ci < length cs1 /\ oi < length obs1 /\ csel (nth ci cs1 c0) = chosen (nth oi obs1 0)) ->
  (forall a b, In (a, b) Q -> a < length cs2 /\ b < length obs2) ->
  relC cs1 cs2 -> relO obs1 obs2 ->
  (forall a b, a < length cs2 -> b < length obs2 -> entry M' a b = entry M (pos csel cs1 a) (pos chosen obs1 b)) ->
  filter (fun q => csel (nth (fst q) cs1 c0)) pairs = map (both (pos csel cs1) (pos chosen obs1)) Q -> follows pairs Q.
Proof.
  induction pairs as [|[ci oi] pairs IH]; intros Q Hp Hq RC RO HM E.
  - destruct Q; [constructor|discriminate].
  - destruct (Hp ci oi (or_introl eq_refl)) as (H1 & H2 & H3). cbn [filter fst] in E.
    pose proof (nth_error_nth' cs1 c0 H1) as Nc. pose proof (nth_error_nth' obs1 0 H2) as Ni.
    destruct (csel (nth ci cs1 c0)) eqn:X.
    + destruct Q as [|[a b] Q]; [discriminate|]. cbn [map] in E. injection E as Ea Eb E. cbn in Ea, Eb.
      destruct (Hq a b (or_introl eq_refl)) as [Ha Hb].
      pose proof (Forall2_len _ _ _ RC) as LC. pose proof (Forall2_len _ _ _ RO) as LO.
      destruct (pos_spec csel cs1 c0 a) as (_ & _ & Ca); [lia|]. destruct (pos_spec chosen obs1 0 b) as (_ & _ & Ob); [lia|].
      eapply (fo_keep ci oi _ _ a b (nth a cs2 c0) (nth b obs2 0)); eauto.
      * apply nth_error_nth'. exact Ha.
      * apply nth_error_nth'. exact Hb.
      * subst ci. rewrite Ca. apply Forall2_nth; [exact RC|lia].
      * subst oi. rewrite Ob. apply (Forall2_nth (pairL L)); [exact RO|lia].
      * rewrite HM by assumption. subst. reflexivity.
      * apply IH; auto; intros; [apply Hp|apply Hq]; right; assumption.
    + eapply fo_skip; eauto. apply IH; auto. intros; apply Hp; right; assumption.
Qed.
End Loop.

Lemma index_fst c0 cs1 cs2 obs1 (pairs Q : list (nat * nat)) : relC cs1 cs2 -> (forall a b, In (a, b) Q -> a < length cs2) ->
  filter (fun q => csel (nth (fst q) cs1 c0)) pairs = map (both (pos csel cs1) (pos chosen obs1)) Q ->
  forall k, k < length cs2 -> (In (pos csel cs1 k) (map fst pairs) <-> In k (map fst Q)).
Proof.
  intros RC Hq E k Hk. pose proof (Forall2_len _ _ _ RC) as LC. split; intros H.
  - apply in_map_iff in H as ([ci oi] & E1 & H). cbn in E1. subst ci.
    assert (X : In (pos csel cs1 k, oi) (filter (fun q => csel (nth (fst q) cs1 c0)) pairs)).
    { apply filter_In. split; [exact H|]. cbn. apply (pos_spec csel cs1 c0 k). lia. }
    rewrite E in X. apply in_map_iff in X as ([a b] & E2 & X). unfold both in E2. cbn in E2. injection E2 as E2 _.
    apply increasing_inj with (l := seq 0 (length (filter csel cs1))) in E2; [subst; apply (in_map fst) in X; exact X|apply pos_increasing| |]; apply in_seq; [|lia].
    apply Hq in X. lia.
  - apply in_map_iff in H as ([a b] & E1 & H). cbn in E1. subst a. apply (in_map (both (pos csel cs1) (pos chosen obs1))) in H. rewrite <- E in H.
    apply filter_In in H as [H _]. apply (in_map fst) in H. exact H.
Qed.
Lemma index_snd c0 cs1 obs1 obs2 (pairs Q : list (nat * nat)) : relO obs1 obs2 -> (forall a b, In (a, b) Q -> b < length obs2) ->
  (forall ci oi, In (ci, oi) pairs -> csel (nth ci cs1 c0) = chosen (nth oi obs1 0)) ->
  filter (fun q => csel (nth (fst q) cs1 c0)) pairs = map (both (pos csel cs1) (pos chosen obs1)) Q ->
  forall k, k < length obs2 -> (In (pos chosen obs1 k) (map snd pairs) <-> In k (map snd Q)).
Proof.
  intros RO Hq Hp E k Hk. pose proof (Forall2_len _ _ _ RO) as LO. split; intros H.
  - apply in_map_iff in H as ([ci oi] & E1 & H). cbn in E1. subst oi.
    assert (X : In (ci, pos chosen obs1 k) (filter (fun q => csel (nth (fst q) cs1 c0)) pairs)).
    { apply filter_In. split; [exact H|]. cbn. rewrite (Hp _ _ H). apply (pos_spec chosen obs1 0 k). lia. }
    rewrite E in X. apply in_map_iff in X as ([a b] & E2 & X). unfold both in E2. cbn in E2. injection E2 as _ E2.
    apply increasing_inj with (l := seq 0 (length (filter chosen obs1))) in E2; [subst; apply (in_map snd) in X; exact X|apply pos_increasing| |]; apply in_seq; [|lia].
    apply Hq in X. lia.
  - apply in_map_iff in H as ([a b] & E1 & H). cbn in E1. subst b. apply (in_map (both (pos csel cs1) (pos chosen obs1))) in H. rewrite <- E in H.
    apply filter_In in H as [H _]. apply (in_map snd) in H. exact H.
Qed.

(** ** Distances *)
(** Entries that compare the two groups are not below the threshold, and the others do not depend on the tracker. *)
Definition isolated_at (rnd : dval N -> dval N) (d : distance FO) (thr : dval N) (s1 s2 : st) (obs1 obs2 : list nat) (cs1 cs2 : list cand) : Prop :=
  forall M, get_distances rnd d s1 obs1 cs1 = Ret M ->
  (forall a b c i, nth_error cs1 a = Some c -> nth_error obs1 b = Some i -> csel c <> chosen i -> ~ dlt (entry M a b) thr) /\
  exists M', get_distances rnd d s2 obs2 cs2 = Ret M' /\
    forall a b, a < length cs2 -> b < length obs2 -> entry M' a b = entry M (pos csel cs1 a) (pos chosen obs1 b).
Definition isolated (rnd : dval N -> dval N) (d : distance FO) : Prop := forall s1 s2 obs1 obs2 cs1 cs2 M,
  sim s1 s2 -> Forall (fun i => 1 <= i <= s_icount s1) obs1 -> Forall (cknown s1) cs1 -> relO obs1 obs2 -> relC cs1 cs2 ->
  get_distances rnd d s1 obs1 cs1 = Ret M ->
  (forall a b c i, nth_error cs1 a = Some c -> nth_error obs1 b = Some i -> csel c <> chosen i -> entry M a b = DPInf) /\
  exists M', get_distances rnd d s2 obs2 cs2 = Ret M' /\
    forall a b, a < length cs2 -> b < length obs2 -> entry M' a b = entry M (pos csel cs1 a) (pos chosen obs1 b).

Lemma pos_inf_not_below (thr : dval N) : ~ dlt DPInf thr.
Proof. unfold dlt. destruct thr; cbn; discriminate. Qed.
Lemma isolated_there rnd d thr s1 s2 obs1 obs2 cs1 cs2 : isolated rnd d -> sim s1 s2 ->
  Forall (fun i => 1 <= i <= s_icount s1) obs1 -> Forall (cknown s1) cs1 -> relO obs1 obs2 -> relC cs1 cs2 -> isolated_at rnd d thr s1 s2 obs1 obs2 cs1 cs2.
Proof.
  intros Hd S Ko Kc RO RC M E. destruct (Hd s1 s2 obs1 obs2 cs1 cs2 M S Ko Kc RO RC E) as [A B]. split; [|exact B].
  intros a b c i Hc Hi Hn. rewrite (A a b c i Hc Hi Hn). apply pos_inf_not_below.
Qed.

Lemma sim_phase rnd d thr obs1 obs2 cs1 cs2 p s1 s2 s1' uc mo uo : rnd_ok rnd -> isolated_at rnd d thr s1 s2 obs1 obs2 cs1 cs2 -> sim s1 s2 ->
  Forall (fun i => 1 <= i <= s_icount s1) obs1 -> Forall (cknown s1) cs1 -> relO obs1 obs2 -> relC cs1 cs2 ->
  update_objects_in_place rnd d thr obs1 cs1 p s1 = (s1', Ret (uc, mo, uo)) ->
  s_icount s1' = s_icount s1 /\
  exists s2' uc2 mo2 uo2, update_objects_in_place rnd d thr obs2 cs2 p s2 = (s2', Ret (uc2, mo2, uo2)) /\
    sim s1' s2' /\ relC uc uc2 /\ relO mo mo2 /\ relO uo uo2.
Proof.
  intros Hr Hd S Ko Kc RO RC E. destruct cs1 as [|c0 cs1'].
  { cbn in RC. inversion RC; subst. cbn in E. injection E as <- <- <- <-. split; [reflexivity|].
    eexists _, _, _, _. split; [reflexivity|]. split; [exact S|]. split; [constructor|]. split; [constructor|exact RO]. }
  set (cs1 := c0 :: cs1') in *. assert (Hne : cs1 <> []) by discriminate. clearbody cs1.
  destruct (uip_phase laws rnd d thr obs1 cs1 p s1 s1' _ Hr E) as (M & pairs & t1 & [Pm Pr Pn Pf _ Px _] & A1 & A2).
  specialize (Pm Hne). specialize (Pr Hne). destruct (Px Hne) as ((cis & ois & Em & Ep) & Et). clear Px.
  assert (E' : apply_matches thr M obs1 cs1 p pairs (not_in_idxs (map fst pairs) 0 cs1) [] (not_in_idxs (map snd pairs) 0 obs1) t1 = (s1', Ret (uc, mo, uo))).
  { destruct pairs as [|q pairs']; [|apply A2; discriminate]. destruct (A1 eq_refl) as [-> Eo]. cbn. rewrite !not_in_idxs_nil. injection Eo as <- <- <-. reflexivity. }
  clear A1 A2 E. destruct Pf as (F1 & F2 & F3 & F4 & _).
  destruct (Hd M Pm) as (Cr & M' & EM' & HM').
  assert (S1 : sim t1 s2). { subst t1. destruct (existsb dtruth _); [apply sim_min1|]; exact S. }
  assert (It : s_icount t1 = s_icount s1).
  { subst t1. destruct (existsb dtruth _); [|reflexivity]. clear. generalize 0 at 1. revert s1. induction obs1 as [|i l IH]; intros s k; [reflexivity|]. cbn. rewrite IH. reflexivity. }
  assert (Kc1 : Forall (cknown t1) cs1) by (eapply Forall_impl; [|exact Kc]; intros [?|?]; cbn; lia). clear Et.
  assert (Hp : forall ci oi, In (ci, oi) pairs -> ci < length cs1 /\ oi < length obs1 /\ csel (nth ci cs1 c0) = chosen (nth oi obs1 0)).
  { intros ci oi H. destruct (F2 ci oi H) as [H1 H2]. split; [exact H1|split; [exact H2|]].
    destruct (Bool.bool_dec (csel (nth ci cs1 c0)) (chosen (nth oi obs1 0))) as [X|X]; [exact X|].
    elim (Cr ci oi _ _ (nth_error_nth' _ _ H1) (nth_error_nth' _ _ H2) X (F3 ci oi H)). }
  destruct cs2 as [|c2 cs2'].
  - assert (Nq : filter (fun q => csel (nth (fst q) cs1 c0)) pairs = map (both (pos csel cs1) (pos chosen obs1)) []).
    { cbn. apply filter_none. intros [ci oi] H. cbn. destruct (Hp ci oi H) as (H1 & _). destruct (csel (nth ci cs1 c0)) eqn:X; [|reflexivity].
      assert (Y : In (nth ci cs1 c0) (filter csel cs1)) by (apply filter_In; split; [apply nth_In, H1|exact X]).
      inversion RC as [Z|]. rewrite <- Z in Y. destruct Y. }
    assert (Fl : follows M M' obs1 obs2 cs1 [] pairs []).
    { apply (make_follows M M' obs1 obs2 cs1 [] c0 pairs []); [exact Hp|intros a b []|exact RC|exact RO|intros a b X; cbn in X; lia|exact Nq]. }
    assert (RA : relC (not_in_idxs (map fst pairs) 0 cs1) []).
    { apply (not_in_related crel csel cs1 [] (map fst pairs) [] RC). intros k Hk. cbn in Hk. lia. }
    assert (RB : relO (not_in_idxs (map snd pairs) 0 obs1) (not_in_idxs [] 0 obs2)).
    { apply (not_in_related (pairL L) chosen obs1 obs2 (map snd pairs) [] RO).
      apply (index_snd c0 cs1 obs1 obs2 pairs [] RO); [intros a b []|intros; apply Hp; assumption|exact Nq]. }
    assert (RN : relO [] []) by constructor.
    destruct (sim_matches thr M M' obs1 obs2 cs1 [] p pairs [] Fl _ _ _ _ _ _ t1 s2 _ _ _ _ S1 Kc1 RA RN RB E') as (I1 & s2' & uc2 & mo2 & uo2 & Eb & R1 & R2 & R3 & R4).
    split; [congruence|]. cbn in Eb. rewrite not_in_idxs_nil in Eb. injection Eb as <- <- <- <-. eexists _, _, _, _. split; [reflexivity|]. auto.
  - assert (Hne2 : c2 :: cs2' <> []) by discriminate. set (cs2 := c2 :: cs2') in *.
    pose proof (get_distances_rect _ _ _ _ _ _ EM') as Pr'. pose proof (Forall2_len _ _ _ RC) as LC. pose proof (Forall2_len _ _ _ RO) as LO.
    assert (Pn' : nan_free M').
    { apply (nan_free_entry _ _ _ Pr'). intros a b Ha Hb. rewrite HM' by assumption. apply (nan_free_entry _ _ _ Pr); [exact Pn| |].
      - apply (pos_spec csel cs1 c0 a). lia.
      - apply (pos_spec chosen obs1 0 b). lia. }
    assert (Kr : dis_nan (rnd (dsucc thr)) = dis_nan thr) by (rewrite Hr; apply dis_nan_succ).
    destruct (sub_match laws rnd (length cs1) (length obs1) (length cs2) (length obs2) thr M M' (pos csel cs1) (pos chosen obs1)
      (fun k => csel (nth k cs1 c0)) (fun k => chosen (nth k obs1 0)) cis ois) as (cis' & ois' & Em' & Ef); auto.
    + rewrite pos_seq, LC. reflexivity.
    + rewrite pos_seq, LO. reflexivity.
    + rewrite <- LC. apply pos_increasing.
    + rewrite <- LO. apply pos_increasing.
    + intros a b Ha Hb X. exact (Cr a b _ _ (nth_error_nth' _ _ Ha) (nth_error_nth' _ _ Hb) X).
    + rewrite <- Ep in Ef. destruct (match_final laws rnd _ _ thr M' cis' ois' Hr Pr' Pn' Em') as [Ll (_ & G2 & _)].
      set (Q := combine cis' ois') in *.
      set (t2 := if existsb dtruth (List.concat M') then set_min_distances thr M' 0 obs2 s2 else s2).
      assert (S2 : sim t1 t2). { subst t2. destruct (existsb dtruth _); [apply sim_min2|]; exact S1. }
      assert (Eb : update_objects_in_place rnd d thr obs2 cs2 p s2 =
        apply_matches thr M' obs2 cs2 p Q (not_in_idxs (map fst Q) 0 cs2) [] (not_in_idxs (map snd Q) 0 obs2) t2).
      { unfold update_objects_in_place. destruct cs2 as [|x y] eqn:Y; [contradiction|]. rewrite <- Y in *. rewrite EM'.
        replace (existsb dis_nan (concat M')) with false by (symmetry; exact Pn'). fold t2. rewrite Em'.
        destruct cis' as [|ca cis'']; [destruct ois'; [|discriminate]; subst Q; cbn; rewrite !not_in_idxs_nil; reflexivity|].
        subst Q. rewrite (combine_fst _ _ Ll), (combine_snd _ _ Ll). reflexivity. }
      rewrite Eb. clearbody Q. clear Eb.
      assert (Fl : follows M M' obs1 obs2 cs1 cs2 pairs Q) by (apply (make_follows M M' obs1 obs2 cs1 cs2 c0); auto).
      assert (RA : relC (not_in_idxs (map fst pairs) 0 cs1) (not_in_idxs (map fst Q) 0 cs2)).
      { apply not_in_related; [exact RC|]. apply (index_fst c0 cs1 cs2 obs1); auto. intros a b H. apply (G2 a b H). }
      assert (RB : relO (not_in_idxs (map snd pairs) 0 obs1) (not_in_idxs (map snd Q) 0 obs2)).
      { apply not_in_related; [exact RO|]. apply (index_snd c0 cs1 obs1 obs2); auto; [intros a b H; apply (G2 a b H)|intros; apply Hp; assumption]. }
      assert (RN : relO [] []) by constructor.
      destruct (sim_matches thr M M' obs1 obs2 cs1 cs2 p pairs Q Fl _ _ _ _ _ _ t1 t2 _ _ _ _ S2 Kc1 RA RN RB E') as (I1 & X).
      split; [congruence|exact X].
Qed.

(** *** Scalar distances *)
Lemma crel_label s1 s2 c1 c2 : sim s1 s2 -> crel c1 c2 -> cand_label s1 c1 = cand_label s2 c2.
Proof.
  intros S R. destruct c1 as [r|i], c2 as [r'|j]; cbn in R |- *; try contradiction.
  - destruct R as [<- Hr]. rewrite (sm_heap _ _ _ _ _ S r Hr). reflexivity.
  - apply (core_conf _ _ (sm_obj _ _ _ _ _ S i j R)).
Qed.
Lemma pair_view s1 s2 i j : sim s1 s2 -> In (i, j) L -> anonymous_view (view_obj s1 i) = anonymous_view (view_obj s2 j).
Proof.
  intros S H. pose proof (sm_obj _ _ _ _ _ S i j H) as E. unfold anonymous_view, view_obj. cbn. rewrite <- E.
  pose proof (core_fields _ _ E) as (_ & _ & _ & El & _ & _ & _ & _ & Ep & _). rewrite <- El, <- Ep.
  rewrite (sm_heap _ _ _ _ _ S _ (sm_last _ _ _ _ _ S i j H)). f_equal.
  pose proof (sm_past _ _ _ _ _ S i j H) as F. apply map_ext_in. intros r Hr. rewrite Forall_forall in F. apply (sm_heap _ _ _ _ _ S r (F r Hr)).
Qed.
Lemma crel_view s1 s2 c1 c2 : sim s1 s2 -> crel c1 c2 -> anonymous_cand (view_cand s1 c1) = anonymous_cand (view_cand s2 c2).
Proof.
  intros S R. destruct c1 as [r|i], c2 as [r'|j]; cbn in R |- *; try contradiction.
  - destruct R as [<- Hr]. rewrite (sm_heap _ _ _ _ _ S r Hr). reflexivity.
  - f_equal. apply pair_view; assumption.
Qed.
Lemma csel_label Q s1 s2 c : P = Some Q -> sim s1 s2 -> cknown s1 c -> Q (cand_label s1 c) = csel c.
Proof. intros HQ S K. destruct c as [r|i]; cbn in K |- *; [apply (sm_lab _ _ _ _ _ S Q r HQ)|apply (sm_olab _ _ _ _ _ S Q i HQ K)]. Qed.

Lemma map_result_all {A B} (f : A -> result B) l : (forall a, In a l -> exists b, f a = Ret b) -> exists bs, map_result f l = Ret bs.
Proof.
  induction l as [|a l IH]; intros H; [eexists; reflexivity|]. destruct (H a (or_introl eq_refl)) as [b Eb].
  destruct IH as [bs Ebs]; [intros; apply H; right; assumption|]. cbn. rewrite Eb, Ebs. eauto.
Qed.

Lemma scalar_copy rnd f s1 s2 obs1 obs2 cs1 cs2 M : number_blind f -> sim s1 s2 -> relO obs1 obs2 -> relC cs1 cs2 ->
  get_distances rnd (ScalarDistance f) s1 obs1 cs1 = Ret M ->
  exists M', get_distances rnd (ScalarDistance f) s2 obs2 cs2 = Ret M' /\
    forall a b, a < length cs2 -> b < length obs2 -> entry M' a b = entry M (pos csel cs1 a) (pos chosen obs1 b).
Proof.
  intros Hf S RO RC E. cbn in E. destruct (scalar_entries rnd f s1 obs1 cs1 M E) as [R He].
  assert (Em : forall a b c' i', nth_error cs2 a = Some c' -> nth_error obs2 b = Some i' ->
      (if negb (label_eqb (cand_label s2 c') (obj_label s2 i')) then Ret DPInf
       else match f (view_cand s2 c') (view_obj s2 i') with Ret d => Ret (rnd d) | Raise e => Raise e end) = Ret (entry M (pos csel cs1 a) (pos chosen obs1 b))).
    { intros a b c' i' Ha Hb. pose proof (Forall2_len _ _ _ RC) as LC. pose proof (Forall2_len _ _ _ RO) as LO.
      assert (La : a < length cs2) by (apply nth_error_Some; congruence). assert (Lb : b < length obs2) by (apply nth_error_Some; congruence).
      destruct (pos_spec csel cs1 c' a) as (P1 & _ & P2); [lia|]. destruct (pos_spec chosen obs1 i' b) as (P3 & _ & P4); [lia|].
      rewrite <- (He _ _ _ _ (nth_error_nth' _ c' P1) (nth_error_nth' _ i' P3)). rewrite P2, P4.
      assert (Rc : crel (nth a (filter csel cs1) c') c'). { pose proof (Forall2_nth crel _ _ c' c' RC a) as X. rewrite (nth_error_nth _ _ c' Ha) in X. apply X. lia. }
      assert (Ro : In (nth b (filter chosen obs1) i', i') L). { pose proof (Forall2_nth (pairL L) _ _ i' i' RO b) as X. rewrite (nth_error_nth _ _ i' Hb) in X. apply X. lia. }
      rewrite <- (crel_label s1 s2 _ _ S Rc). replace (obj_label s2 i') with (obj_label s1 (nth b (filter chosen obs1) i')) by (apply (core_conf _ _ (sm_obj _ _ _ _ _ S _ _ Ro))).
      rewrite (Hf (view_cand s2 c')), (Hf (view_cand s1 _)), (crel_view s1 s2 _ _ S Rc), (pair_view s1 s2 _ _ S Ro). reflexivity. }
    destruct (map_result_all (fun c => map_result (fun i =>
      if negb (label_eqb (cand_label s2 c) (obj_label s2 i)) then Ret DPInf
      else match f (view_cand s2 c) (view_obj s2 i) with Ret d => Ret (rnd d) | Raise e => Raise e end) obs2) cs2) as [M' EM'].
    { intros c Hc. apply In_nth_error in Hc as [a Ha]. apply map_result_all. intros i Hi. apply In_nth_error in Hi as [b Hb]. rewrite (Em a b c i Ha Hb). eauto. }
    exists M'. split; [exact EM'|]. intros a b Ha Hb. destruct (scalar_entries rnd f s2 obs2 cs2 M' EM') as [_ He'].
    destruct (nth_error cs2 a) as [c'|] eqn:X; [|apply nth_error_None in X; lia]. destruct (nth_error obs2 b) as [i'|] eqn:Y; [|apply nth_error_None in Y; lia].
    specialize (He' a b c' i' X Y). rewrite (Em a b c' i' X Y) in He'. congruence.
Qed.
Lemma scalar_isolated Q rnd f : P = Some Q -> number_blind f -> isolated rnd (ScalarDistance f).
Proof.
  intros HQ Hf s1 s2 obs1 obs2 cs1 cs2 M S Ko Kc RO RC E. split; [|exact (scalar_copy rnd f s1 s2 obs1 obs2 cs1 cs2 M Hf S RO RC E)].
  cbn in E. destruct (scalar_entries rnd f s1 obs1 cs1 M E) as [R He].
  intros a b c i Hc Hi Hn. specialize (He a b c i Hc Hi). destruct (label_eqb (cand_label s1 c) (obj_label s1 i)) eqn:X; cbn in He; [|congruence].
  apply label_eqb_eq in X. elim Hn. rewrite Forall_forall in Ko, Kc. rewrite <- (csel_label Q s1 s2 c HQ S) by (eapply Kc, nth_error_In, Hc).
  rewrite X. apply (sm_olab _ _ _ _ _ S Q i HQ). eapply Ko, nth_error_In, Hi.
Qed.
End Phase.

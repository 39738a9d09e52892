(** C98: embeddings that tell the things apart. *)
From Coq Require Import ZArith Bool Lia List Arith Permutation.
From Verif Require Import Model.Num Model.Base Model.Matching Model.Filter Model.Tracker Spec.MatchingSpec.
From Verif Require Import Proofs.NumLaws Proofs.MatchingProofs Proofs.TrackerFrame Proofs.Identity Proofs.Effect Proofs.CallEffect Proofs.CallProps Proofs.CallTheorems Proofs.CallTheorems3 Proofs.PhasesProofs Proofs.GroundTruth Proofs.ReturnProofs.
From Verif Require Import Spec.CallSpec Spec.PhasesSpec Spec.GroundTruthSpec Spec.ReturnSpec.
Import ListNotations.
Local Open Scope nat_scope.

Section P.
Context {N : Num} (laws : NumLaws N) {FO : filter_ops N}.
Notation st := (st FO).
Variable thing : Type.
Variable who : nat -> thing.

(** The detection of a thing goes to the object that follows it, whatever the re-identification distance. *)
Lemma served c f dets p ct (s s' : st) out j r : rnd_ok (tc_rnd c) -> tracker_state c s -> tc_distance c = ScalarDistance f -> age_blind f ->
  update c (Some dets) p ct s = (s', Ret out) -> one_each thing who c s -> unambiguous thing who c f (MkFrame dets p ct s s' out) ->
  matchable c s j -> In r dets -> who r = who (last_det s j) -> last_det s' j = r.
Proof.
  intros Hr Ht Ed Ab E One [Un1 Un2] Hj Hin Ew. cbn [f_dets f_pre f_ct] in *. apply tracker_state_good in Ht as [T C].
  destruct (update_effect laws _ _ _ _ _ _ _ Hr (ti_nodup _ T) E) as (s0 & s1 & s2 & s3 & H1 & H2 & G & rest1 & news & un1 & He & Ho & Es0). cbn [dets_of] in *. rewrite <- Es0 in Un2.
  pose proof (effect_summary _ _ _ _ _ _ _ _ _ _ _ _ _ _ _ _ T He) as Su. destruct He as [ST PH1 (un2 & PH2) _ _ _].
  assert (Na : NoDup (alive c s)) by (unfold alive, kept; repeat apply NoDup_filter; apply (ti_nodup _ T)).
  assert (Ni : NoDup (inits c s)) by (apply NoDup_filter; auto). assert (Nu : NoDup (uninits c s)) by (apply NoDup_filter; auto).
  assert (Un : forall i r, In i (alive c s) -> In r dets -> (near c f s0 r i <-> who r = who (last_det s i))) by (intros i r' Hi; apply Un2, matchable_alive, Hi).
  assert (One' : forall i j, In i (alive c s) -> In j (alive c s) -> who (last_det s i) = who (last_det s j) -> i = j) by (intros i k Hi Hk; apply One; apply matchable_alive; auto).
  destruct (phase_hits_facts _ _ _ _ _ _ _ _ _ Ni PH1) as (_ & A2 & _ & A4 & _ & _ & _ & _ & A9 & _).
  destruct (clear_phase thing who c f (inits c s) dets p s0 s1 H1 rest1 un1 (fun i => who (last_det s i)) Ed PH1 Ni Un1) as [B1 B2].
  { intros i k Hi Hk. apply One'; apply inits_alive; auto. } { intros i r' Hi Hr'. apply Un; auto. apply inits_alive, Hi. }
  assert (Nr1 : NoDup (map who rest1)).
  { assert (X : NoDup (map who (map h_det H1 ++ rest1))) by (eapply Permutation_NoDup; [apply Permutation_map, A2|exact Un1]). rewrite map_app in X. eapply NoDup_app_r; eauto. }
  destruct (clear_phase thing who c f (uninits c s) rest1 p s1 s2 H2 news un2 (fun i => who (last_det s i)) Ed PH2 Nu Nr1) as [C1 C2].
  { intros i k Hi Hk. apply One'; apply uninits_alive; auto. }
  { intros i r' Hi Hr'. rewrite <- (near_same c f s0 s1 r' i Ab A4); [|apply A9; intros X; eapply inits_not_uninits; eauto]. apply Un; [apply uninits_alive, Hi|apply B2, Hr']. }
  assert (LH : forall i r dist, In (i, r, dist) (H1 ++ H2) -> last_det s' i = r).
  { intros i r' dist Hd. destruct (su_hit _ _ _ _ _ _ _ _ _ _ Su i r' dist Hd) as (om & _ & X). eapply hit_last; eauto. }
  apply matchable_alive in Hj. assert (AI : In j (inits c s) \/ In j (uninits c s)).
  { unfold inits, uninits. rewrite !filter_In. destruct (o_initializing (s_store s j)); auto. }
  destruct AI as [X|X].
  - destruct (proj2 (B1 j r)) as [d Hd]; [auto|]. apply (LH j r d). apply in_app_iff; auto.
  - destruct (proj2 (C1 j r)) as [d Hd]; [|apply (LH j r d); apply in_app_iff; auto]. split; [exact X|]. split; [|exact Ew]. apply B2. split; [exact Hin|].
    intros k Hk Ek. assert (k = j); [|subst; eapply inits_not_uninits; eauto]. apply One'; [apply inits_alive, Hk|exact Hj|congruence].
Qed.

Lemma last_from c dets p ct (s s' : st) out i : rnd_ok (tc_rnd c) -> tracker_state c s -> update c (Some dets) p ct s = (s', Ret out) ->
  known s' i -> In (last_det s' i) dets \/ (known s i /\ last_det s' i = last_det s i).
Proof.
  intros Hr Ht E Hk. apply tracker_state_good in Ht as [T _]. destruct (update_summary laws _ _ _ _ _ _ _ Hr T E) as (H1 & H2 & G & news & Su & _). cbn [dets_of] in Su.
  pose proof (su_perm _ _ _ _ _ _ _ _ _ _ Su) as Pm.
  assert (LH : forall i r dist, In (i, r, dist) (H1 ++ H2) -> last_det s' i = r /\ In r dets).
  { intros k r dist Hin. destruct (su_hit _ _ _ _ _ _ _ _ _ _ Su k r dist Hin) as (om & _ & X). split; [eapply hit_last; eauto|].
    eapply Permutation_in; [symmetry; exact Pm|]. rewrite app_assoc, <- map_app, in_app_iff. left. apply in_map_iff. exists (k, r, dist). auto. }
  destruct (le_lt_dec i (s_icount s)) as [L|L].
  2:{ left. unfold known in Hk. rewrite (su_icount _ _ _ _ _ _ _ _ _ _ Su) in Hk. pose proof (su_new _ _ _ _ _ _ _ _ _ _ Su (i - S (s_icount s)) ltac:(lia)) as X.
    replace (S (s_icount s) + (i - S (s_icount s))) with i in X by lia. unfold last_det. rewrite (nr_last _ _ _ _ _ _ _ X).
    eapply Permutation_in; [symmetry; exact Pm|]. rewrite !in_app_iff. right. right. apply nth_In. lia. }
  assert (Ks : known s i) by (unfold known in *; lia).
  destruct (in_dec Nat.eq_dec i (kept c s)) as [Hkk|Hkk].
  2:{ right. split; [exact Ks|]. unfold last_det. rewrite (su_gone _ _ _ _ _ _ _ _ _ _ Su i Ks Hkk). reflexivity. }
  destruct (in_dec Nat.eq_dec i (map h_obj H1 ++ map h_obj H2 ++ map h_obj G)) as [X|X].
  - left. rewrite app_assoc, <- map_app, in_app_iff in X. destruct X as [X|X]; apply in_map_iff in X as ([[i' r] d] & X & Hin); cbn in X; subst i'.
    + destruct (LH _ _ _ Hin) as [-> X]. exact X.
    + destruct (su_merge _ _ _ _ _ _ _ _ _ _ Su i r d Hin) as (om & _ & MR). unfold last_det. rewrite (mr_last _ _ _ MR).
      assert (Y : In r (map h_obj H2)) by (apply (su_cand _ _ _ _ _ _ _ _ _ _ Su), in_map_iff; exists (i, r, d); auto).
      apply in_map_iff in Y as ([[r' q] d'] & Y & Hin'). cbn in Y. subst r'. destruct (LH r q d') as [Z1 Z2]; [apply in_app_iff; auto|]. unfold last_det in Z1. rewrite Z1. exact Z2.
  - right. split; [exact Ks|]. destruct (su_missed _ _ _ _ _ _ _ _ _ _ Su i Hkk X) as [m Y]. unfold last_det. rewrite Y. destruct ct; reflexivity.
Qed.

Lemma update_dets_ct_data T ds : forall (s : st) r, d_data (s_heap (update_dets_ct T ds s) r) = d_data (s_heap s r).
Proof.
  induction ds as [|d ds IH]; intros s r; cbn; auto. rewrite IH. cbn.
  destruct (Nat.eq_dec r d) as [->|H]; [rewrite upd_same|rewrite upd_other by auto]; reflexivity.
Qed.
Lemma ct_heap_data ct ds (s : st) r : d_data (ct_heap ct ds s r) = d_data (s_heap s r).
Proof. destruct ct; [apply update_dets_ct_data|reflexivity]. Qed.

Lemma embeddings_blind e g : compares_embeddings (FO := FO) e g -> reid_blind g.
Proof. intros H j j' o o' (_ & (_ & _ & _ & A & _) & _) (_ & (_ & _ & _ & B & _) & _). rewrite !H, A, B. reflexivity. Qed.

Section V.
Variables (c : tconf FO) (f g : cview FO -> oview FO -> result (dval N)) (lab : nat -> label) (emb : nat -> list N) (e : list N -> list N -> dval N).
Hypotheses (Hr : rnd_ok (tc_rnd c)) (Ed : tc_distance c = ScalarDistance f) (Ab : age_blind f) (Eg : tc_reid_distance c = Some g) (Hg : compares_embeddings e g).

Definition inv (seen : list nat) (s : st) : Prop := forall i, known s i -> In (last_det s i) seen /\ obj_label s i = lab (last_det s i).

Lemma call_recognized dets p ct (s s' : st) out seen all : tracker_state c s -> update c (Some dets) p ct s = (s', Ret out) -> one_each thing who c s ->
  unambiguous thing who c f (MkFrame dets p ct s s' out) -> inv seen s ->
  (forall r, In r (dets ++ seen) -> d_label (s_heap s r) = lab r /\ d_data (s_heap s r) = emb r) -> incl (dets ++ seen) all ->
  telling who lab emb e (tc_rnd c) (tc_reid_threshold c) all ->
  recognized thing who c (MkFrame dets p ct s s' out) /\ inv (dets ++ seen) s'.
Proof.
  intros Ht E One Un I Hh Ia Te. destruct (labels_match laws c f dets p ct s s' out Hr Ht Ed E) as (L1 & L2 & L3). split.
  - intros g' X i j Si Cj. rewrite Eg in X. injection X as <-. destruct Cj as (Mj & _ & r & Hr1 & Hr2). cbn [f_pre f_post f_dets f_ct] in *.
    pose proof (served c f dets p ct s s' out j r Hr Ht Ed Ab E One Un Mj Hr1 Hr2) as Lj.
    apply tracker_state_good in Ht as [T _]. destruct (update_effect laws _ _ _ _ _ _ _ Hr (ti_nodup _ T) E) as (s0 & s1 & s2 & s3 & H1 & H2 & G & rest1 & news & un1 & He & _ & Es0). cbn [dets_of] in *. rewrite <- Es0.
    pose proof (effect_summary _ _ _ _ _ _ _ _ _ _ _ _ _ _ _ _ T He) as Su. destruct He as [ST _ _ _ _ _].
    assert (Kj : known s j) by (destruct Mj as [X _]; exact (valid_tracked _ _ T X)).
    assert (Ti : tracked s i) by (destruct Si as [[X _]|[[X _] _]]; exact X). assert (Ki : known s i) by exact (valid_tracked _ _ T Ti).
    destruct (I _ Ki) as [Ii Li]. destruct (I _ Kj) as [Ij Ljl].
    assert (Ei : o_last_det (s_store s0 i) = last_det s i /\ o_conf (s_store s0 i) = o_conf (s_store s i)).
    { destruct (in_dec Nat.eq_dec i (kept c s)) as [Hk|Hk]; [rewrite (sp_step _ _ _ _ _ ST) by exact Hk; destruct ct; auto|rewrite (sp_other _ _ _ _ _ ST) by exact Hk; auto]. }
    destruct Ei as [Ei1 Ei2]. unfold reid_near. rewrite (Hg (view_obj s' j) (view_obj s0 i)). cbn [view_obj v_last].
    change (o_last_det (s_store s' j)) with (last_det s' j). rewrite Lj, Ei1.
    assert (D1 : d_data (s_heap s' r) = emb r).
    { destruct (su_heap _ _ _ _ _ _ _ _ _ _ Su r) as (_ & _ & _ & X & _). rewrite <- X, ct_heap_data. apply Hh. apply in_app_iff; auto. }
    assert (D2 : d_data (s_heap s0 (last_det s i)) = emb (last_det s i)).
    { rewrite (sp_heap _ _ _ _ _ ST), ct_heap_data. apply Hh. apply in_app_iff; auto. }
    rewrite D1, D2, (L2 j Kj), Ljl. unfold obj_label at 1. rewrite Ei2. fold (obj_label s i). rewrite Li.
    assert (A1 : In r all) by (apply Ia, in_app_iff; auto). assert (A2 : In (last_det s j) all) by (apply Ia, in_app_iff; auto). assert (A3 : In (last_det s i) all) by (apply Ia, in_app_iff; auto).
    assert (Lr : lab r = lab (last_det s j)) by (apply (Te r (last_det s j) A1 A2); exact Hr2).
    rewrite <- Lr, <- Hr2. rewrite <- (Te r (last_det s i) A1 A3). split; [intros (X & d & Y & Z)|intros (X & Y)].
    + split; [exact X|]. injection Y as <-. exact Z. + split; [exact X|]. eauto.
  - intros i Hk. destruct (last_from c dets p ct s s' out i Hr Ht E Hk) as [X|[X Y]].
    + split; [apply in_app_iff; auto|]. destruct (Nat.eq_dec (last_det s' i) (last_det s i)) as [Q|Q].
      * destruct (le_lt_dec i (s_icount s)) as [L|L].
        -- assert (Ks : known s i) by (unfold known in *; lia). rewrite (L2 i Ks), Q. apply I, Ks.
        -- rewrite L1; auto; [|right; unfold known; lia]. apply Hh. apply in_app_iff; auto.
      * rewrite L1; auto. apply Hh. apply in_app_iff; auto.
    + destruct (I i X) as [I1 I2]. rewrite Y, (L2 i X). split; [apply in_app_iff; auto|exact I2].
Qed.

Theorem video_embeddings (s : st) fs : tracker_state c s -> s_icount s = 0 -> video c s fs -> (forall fr, In fr fs -> unambiguous thing who c f fr) ->
  embedded lab emb [] fs -> telling who lab emb e (tc_rnd c) (tc_reid_threshold c) (all_dets fs) ->
  forall fr, In fr fs -> right_return thing who c fr.
Proof.
  intros Ht H0 V Un Em Te.
  assert (Go : forall all seen s fs, tracker_state c s -> one_each thing who c s -> inv seen s -> video c s fs -> (forall fr, In fr fs -> unambiguous thing who c f fr) ->
    embedded lab emb seen fs -> incl (all_dets fs ++ seen) all -> telling who lab emb e (tc_rnd c) (tc_reid_threshold c) all -> forall fr, In fr fs -> right_return thing who c fr).
  { clear s fs Ht H0 V Un Em Te. intros all seen s fs Ht One I V. revert seen Ht One I. induction V as [s|s heap h dets p ct s' out fs Hh E V IH]; intros seen Ht One I Un Em Ia Te fr Hin; [destruct Hin|].
    destruct Em as [Em1 Em2]. cbn [f_dets f_pre] in Em1, Em2.
    assert (Ht' : tracker_state c (meanwhile s heap h)) by (apply ts_meanwhile; auto).
    destruct (call_recognized dets p ct (meanwhile s heap h) s' out seen all Ht' E One (Un _ (or_introl eq_refl)) I Em1) as [Rec I']; [|exact Te|].
    { intros r Hr'. apply Ia. cbn. rewrite !in_app_iff in *. tauto. }
    assert (R : right_return thing who c (MkFrame dets p ct (meanwhile s heap h) s' out)).
    { apply (call_return laws thing who c f); auto; [|apply Un; left; reflexivity]. intros g' X. rewrite Eg in X. injection X as <-. eapply embeddings_blind; eauto. }
    destruct Hin as [<-|Hin]; [exact R|]. apply (IH (dets ++ seen)); auto.
    - change s' with (fst (s', @Ret (list nat) out)). rewrite <- E. apply ts_update, Ht'.
    - apply (rr_one_each _ _ _ _ R).
    - intros. apply Un. right. auto.
    - intros r Hr'. apply Ia. cbn. rewrite !in_app_iff in *. tauto. }
  apply (Go (all_dets fs) [] s fs); auto.
  - intros i j Mi. exfalso. destruct Mi as [X _]. apply tracker_state_good in Ht as [T _]. pose proof (valid_tracked _ _ T X) as [Y1 Y2]. lia.
  - intros i Hk. unfold known in Hk. lia.
  - rewrite app_nil_r. apply incl_refl.
Qed.
End V.
End P.

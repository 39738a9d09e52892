(** The exact law of total_object_count with re-identification. *)
From Coq Require Import ZArith Bool Arith String List Lia Permutation.
From Verif Require Import Model.Num Model.Base Model.Matching Model.Filter Model.Tracker
  Spec.MatchingSpec Spec.IdentitySpec Spec.CallSpec Spec.CountSpec Proofs.NumLaws Proofs.MatchingProofs Proofs.TrackerFrame Proofs.Identity
  Proofs.Effect Proofs.CallEffect Proofs.CallProps Proofs.CallTheorems Proofs.CallTheorems2 Proofs.CallTheorems3.
Import ListNotations.

Section CountProofs.
Context {N : Num} {FO : filter_ops N} (laws : NumLaws N).
Notation st := (st FO).
Notation frame := (CallSpec.frame FO).

Lemma untracked_stays c dets p ct (s s' : st) out i : rnd_ok (tc_rnd c) -> good c s ->
  update c (Some dets) p ct s = (s', Ret out) -> known s i -> tracked s' i -> tracked s i.
Proof.
  intros Hr [T C] E Hk Ht. destruct (update_summary laws _ _ _ _ _ _ _ Hr T E) as (H1 & H2 & G & news & S & _). cbn [dets_of] in S.
  apply (tracked_old _ _ _ _ _ _ _ _ _ _ _ T S) in Ht; [|exact Hk]. destruct Ht as [Ht _]. eapply kept_tracked; eauto.
Qed.

Lemma becomes_initialized_reid c dets p ct (s s' : st) out i : rnd_ok (tc_rnd c) -> good c s -> (0 <= tc_delay c)%Z ->
  update c (Some dets) p ct s = (s', Ret out) -> known s' i ->
  o_initializing (s_store s' i) = false -> (known s i -> o_initializing (s_store s i) = true) ->
  In i (get_active_objects s') \/ absorbed (MkFrame dets p ct s s' out) i.
Proof.
  intros Hr Hg Hd E Hk Hini Hbef. rewrite active_iff.
  destruct (le_lt_dec i (s_icount s)) as [Hle|Hgt].
  2:{ left. destruct (new_object laws _ _ _ _ _ _ _ i Hr Hg E) as (Hti & r & _ & NR); [unfold known in Hk; lia|].
      split; auto. split; auto. unfold hit_counter. rewrite (nr_init _ _ _ _ _ _ _ NR) in Hini.
      rewrite (nr_hit _ _ _ _ _ _ _ NR). apply Z.leb_gt in Hini. lia. }
  assert (Hks : known s i) by (unfold known in *; lia). specialize (Hbef Hks).
  destruct Hg as [T C]. destruct (update_summary laws _ _ _ _ _ _ _ Hr T E) as (H1 & H2 & G & news & S & _). cbn [dets_of] in S.
  destruct (in_dec Nat.eq_dec i (kept c s)) as [K|K].
  2:{ rewrite (su_gone _ _ _ _ _ _ _ _ _ _ S) in Hini; auto. congruence. }
  destruct (in_dec Nat.eq_dec i (map h_obj (H1 ++ H2))) as [Hh1|Hh1].
  - destruct (in_hits _ _ Hh1) as (r & d & Hin).
    destruct (su_hit _ _ _ _ _ _ _ _ _ _ S _ _ _ Hin) as (om & U & HR). pose proof (hit_last _ _ _ _ _ _ HR) as Hlast. destruct HR as (o1 & F1 & F2).
    destruct (in_dec Nat.eq_dec i (map h_det G)) as [Hg|Hg].
    + right. apply in_map_iff in Hg as ([[j i'] dj] & X & HG). unfold h_det in X; cbn in X. subst i'.
      destruct (su_merge _ _ _ _ _ _ _ _ _ _ S _ _ _ HG) as (oj & _ & MR).
      assert (HjG : In j (map h_obj G)) by (apply in_map_iff; exists (j, i, dj); auto).
      assert (HiG : In i (map h_det G)) by (apply in_map_iff; exists (j, i, dj); auto).
      assert (Hi2 : In i (map h_obj H2)) by (apply (su_cand _ _ _ _ _ _ _ _ _ _ S); auto).
      assert (Hjk : In j (kept c s)).
      { destruct (su_target _ _ _ _ _ _ _ _ _ _ S j HjG) as [X|X]; [apply alive_kept, inits_alive, X|apply dead_kept, X]. }
      assert (Hne : j <> i).
      { intros ->. pose proof (NoDup_app_r _ _ (su_nodup _ _ _ _ _ _ _ _ _ _ S)) as Z. eapply NoDup_app_disj; eauto. }
      unfold absorbed; cbn [f_pre f_post f_dets]. split; [eapply kept_tracked; eauto|]. split; [auto|]. split; [auto|].
      split; [rewrite (tracked_old _ _ _ _ _ _ _ _ _ _ _ T S) by exact Hks; tauto|].
      exists j. split; [auto|]. split; [eapply kept_tracked; eauto|]. split.
      { apply (tracked_old _ _ _ _ _ _ _ _ _ _ _ T S); [apply (valid_tracked _ _ T (kept_tracked _ _ _ Hjk))|].
        split; auto. intros Y. apply (su_cand _ _ _ _ _ _ _ _ _ _ S) in Y.
        pose proof (NoDup_app_r _ _ (su_nodup _ _ _ _ _ _ _ _ _ _ S)) as Z. eapply NoDup_app_disj; eauto. }
      split; [apply (mr_last _ _ _ MR)|]. split; [|apply (mr_filter _ _ _ MR)].
      unfold last_det. rewrite Hlast. eapply su_dets; eauto.
    + left. assert (Hti : tracked s' i) by (apply (tracked_old _ _ _ _ _ _ _ _ _ _ _ T S); auto).
      split; auto. split; auto. unfold hit_counter. rewrite F2 in *. cbn in *.
      rewrite (hr_init _ _ _ _ _ F1), (um_init _ _ U), st_init, Hbef in Hini. cbn in Hini. apply negb_false_iff, Z.ltb_lt in Hini.
      rewrite (um_conf _ _ U), st_conf, (co_delay _ _ (C i Hks)) in Hini. lia.
  - exfalso. destruct (in_dec Nat.eq_dec i (map h_obj G)) as [Hg|Hg].
    + destruct (in_hits _ _ Hg) as (j & d & HG). destruct (su_merge _ _ _ _ _ _ _ _ _ _ S _ _ _ HG) as (om & U & MR).
      rewrite (mr_init _ _ _ MR), (um_init _ _ U), st_init in Hini. congruence.
    + assert (Hmiss := su_missed _ _ _ _ _ _ _ _ _ _ S i K ltac:(rewrite map_app, in_app_iff in Hh1; rewrite !in_app_iff; tauto)).
      rewrite (um_init _ _ Hmiss), st_init in Hini. congruence.
Qed.

Definition split_inv (s : st) (R A : nat -> Prop) : Prop :=
  (forall i, known s i /\ o_initializing (s_store s i) = false <-> R i \/ A i) /\ (forall i, A i -> ~ R i /\ ~ tracked s i).

Lemma split_step c (s : st) f fs R A : rnd_ok (tc_rnd c) -> tracker_state c s -> (0 <= tc_delay c)%Z -> video c s (f :: fs) ->
  split_inv s R A -> split_inv (f_post f) (fun i => R i \/ In i (f_out f)) (fun i => A i \/ absorbed f i).
Proof.
  intros Hr Ht Hd V [I D].
  destruct (video_cons_inv laws _ _ _ _ V Hr (tracker_state_good _ _ Ht)) as (Gp & Gq & E & Eo & S1 & S2 & S3 & V').
  pose proof (update_icount _ _ _ _ _ _ _ Gp E) as Hic.
  assert (F : forall i, absorbed (MkFrame (f_dets f) (f_period f) (f_ct f) (f_pre f) (f_post f) (f_out f)) i <-> absorbed f i) by (intros; destruct f; reflexivity).
  assert (Old : forall k, known s k -> o_initializing (s_store s k) = false -> known (f_post f) k /\ o_initializing (s_store (f_post f) k) = false).
  { intros k X1 X2. assert (Hv : known (f_pre f) k) by (unfold known in *; rewrite S3; auto).
    pose proof (update_evolves _ _ _ _ _ _ _ k Gp E Hv) as [E1 E2 E3 E4]. rewrite S1 in *. split; [unfold known in *; lia|auto]. }
  assert (Act : forall k, In k (f_out f) -> tracked (f_post f) k /\ o_initializing (s_store (f_post f) k) = false).
  { intros k X. rewrite Eo in X. apply active_iff in X as (X1 & X2 & X3). auto. }
  split.
  - intros k. split.
    + intros [X1 X2]. destruct (le_lt_dec k (s_icount s)) as [Hle|Hgt].
      * assert (Hks : known s k) by (unfold known in *; lia).
        destruct (o_initializing (s_store s k)) eqn:Ek.
        -- destruct (becomes_initialized_reid _ _ _ _ _ _ _ k Hr Gp Hd E X1 X2) as [Y|Y]; [intros _; rewrite S1; auto| |].
           ++ rewrite <- Eo in Y. auto.
           ++ apply F in Y. auto.
        -- destruct (proj1 (I k) (conj Hks Ek)); auto.
      * destruct (becomes_initialized_reid _ _ _ _ _ _ _ k Hr Gp Hd E X1 X2) as [Y|Y]; [intros Z; unfold known in *; rewrite S3 in Z; lia| |].
        -- rewrite <- Eo in Y. auto.
        -- apply F in Y. auto.
    + intros [[X|X]|[X|X]].
      * destruct (proj2 (I k) (or_introl X)). auto.
      * destruct (Act k X). split; auto. apply valid_tracked in H; [exact H|apply Gq].
      * destruct (proj2 (I k) (or_intror X)). auto.
      * destruct X as (X1 & X2 & X3 & _). split; auto. apply valid_tracked in X1; [|apply Gp]. unfold valid, known in *. lia.
  - intros k [X|X].
    + destruct (D k X) as [D1 D2]. destruct (proj2 (I k) (or_intror X)) as [K1 K2].
      assert (~ tracked (f_post f) k).
      { intros Y. apply D2. unfold tracked. rewrite <- S2. eapply (untracked_stays _ _ _ _ _ _ _ k Hr Gp E); auto. unfold known in *. rewrite S3. auto. }
      split; auto. intros [Y|Y]; [auto|]. apply Act in Y. tauto.
    + destruct X as (X1 & X2 & X3 & X4 & _). split; auto. intros [Y|Y].
      * destruct (proj2 (I k) (or_introl Y)) as [_ Z]. rewrite S1 in X2. congruence.
      * apply Act in Y. tauto.
Qed.

Lemma split_inv_ext (s : st) R R' A A' : (forall i, R i <-> R' i) -> (forall i, A i <-> A' i) -> split_inv s R A -> split_inv s R' A'.
Proof.
  intros HR HA [I D]. split.
  - intros i. rewrite <- HR, <- HA. apply I.
  - intros i. rewrite <- HR, <- HA. apply D.
Qed.
Lemma split_video c fs : forall (s : st) R A f, rnd_ok (tc_rnd c) -> tracker_state c s -> (0 <= tc_delay c)%Z -> video c s (fs ++ [f]) ->
  split_inv s R A ->
  split_inv (f_post f) (fun i => R i \/ exists g, In g (fs ++ [f]) /\ In i (f_out g)) (fun i => A i \/ exists g, In g (fs ++ [f]) /\ absorbed g i).
Proof.
  induction fs as [|f0 fs IH]; intros s R A f Hr Ht Hd V Inv; cbn [app] in *.
  - eapply split_inv_ext; [| |eapply split_step; eauto]; intros i; cbn.
    + split; [intros [X|X]; [auto|right; exists f; auto]|intros [X|(g & [<-|[]] & X)]; auto].
    + split; [intros [X|X]; [auto|right; exists f; auto]|intros [X|(g & [<-|[]] & X)]; auto].
  - pose proof (split_step c s f0 (fs ++ [f]) R A Hr Ht Hd V Inv) as Inv'.
    destruct (video_cons_inv laws _ _ _ _ V Hr (tracker_state_good _ _ Ht)) as (Gp & Gq & E & Eo & S1 & S2 & S3 & V').
    assert (Ht1 : tracker_state c (f_pre f0)) by (inversion V; subst; cbn; apply ts_meanwhile; auto).
    pose proof (tracker_state_ret _ _ _ _ _ _ _ Ht1 E) as Ht2.
    eapply split_inv_ext; [| |eapply (IH (f_post f0)); eauto]; intros i; cbn.
    + split; [intros [[X|X]|(g & Hg & X)]; auto; right; [exists f0|exists g]; auto|].
      intros [X|(g & [<-|Hg] & X)]; auto. right. exists g. auto.
    + split; [intros [[X|X]|(g & Hg & X)]; auto; right; [exists f0|exists g]; auto|].
      intros [X|(g & [<-|Hg] & X)]; auto. right. exists g. auto.
Qed.

Theorem total_count_exact c (s : st) fs f : rnd_ok (tc_rnd c) -> tracker_state c s -> s_icount s = 0 ->
  (0 <= tc_delay c)%Z -> video c s (fs ++ [f]) ->
  exists L, NoDup L /\ (forall i, In i L <-> exists g, In g (fs ++ [f]) /\ absorbed g i) /\
    (forall i, In i L -> ~ In i (returned (fs ++ [f]))) /\
    total_object_count (f_post f) = List.length (returned (fs ++ [f])) + List.length L.
Proof.
  intros Hr Ht H0 Hd V.
  assert (split_inv s (fun _ => False) (fun _ => False)) as Inv.
  { split; [intros i; unfold known; split; [lia|tauto]|tauto]. }
  destruct (split_video c fs s _ _ f Hr Ht Hd V Inv) as [I D].
  assert (Hs : tracker_state c (f_post f)) by (eapply video_state; eauto; apply in_app_iff; right; left; reflexivity).
  pose proof (tracker_state_good _ _ Hs) as [T _].
  set (all := filter (fun i => negb (o_initializing (s_store (f_post f) i))) (seq 1 (s_icount (f_post f)))).
  assert (Hall : forall i, In i all <-> known (f_post f) i /\ o_initializing (s_store (f_post f) i) = false).
  { intros i. unfold all. rewrite filter_In, in_seq, negb_true_iff. unfold known. split; intros [X Y]; split; auto; lia. }
  assert (Hret : forall i, In i (returned (fs ++ [f])) <-> exists g, In g (fs ++ [f]) /\ In i (f_out g)).
  { intros i. unfold returned. rewrite nodup_In, in_concat. split.
    - intros (l & Hl & X). apply in_map_iff in Hl as (g & <- & Hg). eauto.
    - intros (g & Hg & X). exists (f_out g). split; auto. apply in_map; auto. }
  set (L := filter (fun i => if in_dec Nat.eq_dec i (returned (fs ++ [f])) then false else true) all).
  assert (HL : forall i, In i L <-> In i all /\ ~ In i (returned (fs ++ [f]))).
  { intros i. unfold L. rewrite filter_In. destruct (in_dec _ _ _); split; intros [X Y]; split; auto; try discriminate; contradiction. }
  assert (NA : NoDup all) by (apply NoDup_filter, seq_NoDup).
  exists L. split; [apply NoDup_filter; auto|]. split; [|split].
  - intros i. rewrite HL, Hall, Hret. split.
    + intros [X Y]. apply I in X as [[[]|X]|[[]|X]]; [contradiction|exact X].
    + intros X. destruct (D i (or_intror X)) as [D1 D2]. split; [apply I; auto|]. intros Y. apply D1. auto.
  - intros i Hi. apply HL in Hi. tauto.
  - unfold total_object_count. rewrite <- (ti_count _ T). fold all.
    rewrite <- app_length. apply Nat.le_antisymm.
    + apply NoDup_incl_length; auto. intros i Hi. apply in_or_app.
      destruct (in_dec Nat.eq_dec i (returned (fs ++ [f]))); [auto|right; apply HL; auto].
    + apply NoDup_incl_length.
      * apply NoDup_app_intro; [apply NoDup_nodup|apply NoDup_filter; auto|]. intros x Hx HxL. apply HL in HxL. tauto.
      * intros i Hi. apply in_app_or in Hi as [Hi|Hi]; [|apply HL in Hi; tauto].
        apply Hall. apply I. left. right. apply Hret. exact Hi.
Qed.
End CountProofs.

(** Consequences of the identity invariant, in the form used by Props. *)
From Coq Require Import ZArith Bool Arith String List Lia.
From Verif Require Import Model.Num Model.Base Model.Matching Model.Filter Model.Tracker Model.Threads
  Spec.IdentitySpec Proofs.TrackerFrame Proofs.Identity.
Import ListNotations.

Section P.
Context {N : Num} {FO : filter_ops N}.
Variable conf : nat -> tconf FO.

Lemma ids_unique (w : world FO) k : reachable conf w ->
  (forall i j a, created w k i -> created w k j ->
     o_id (obj w k i) = Some a -> o_id (obj w k j) = Some a -> i = j) /\
  (forall i a, created w k i -> o_id (obj w k i) = Some a -> 1 <= a <= total_object_count (focus w k)) /\
  (forall a, 1 <= a <= total_object_count (focus w k) -> exists i, created w k i /\ o_id (obj w k i) = Some a).
Proof.
  intros R. pose proof (wi_t _ (WInv_reachable _ _ R) k) as T. split; [|split].
  - intros i j a Hi Hj. apply (ti_inj _ T); auto.
  - intros i a Hi E. apply (TInv_id_some _ i a T Hi E).
  - apply (ti_surj _ T).
Qed.

Lemma reachable_run (w : world FO) ops : reachable conf w -> reachable conf (run conf w ops).
Proof.
  intros (h & d & o1 & ->). exists h, d, (o1 ++ ops).
  assert (forall o1 w, run conf (run conf w o1) ops = run conf w (o1 ++ ops)) as H.
  { clear. induction o1; intros; cbn; auto. }
  apply H.
Qed.

Lemma ids_never_reused (w : world FO) k ops i j a :
  reachable conf w -> created w k i -> o_id (obj w k i) = Some a ->
  created (run conf w ops) k j -> o_id (obj (run conf w ops) k j) = Some a -> j = i.
Proof.
  intros R Hi E Hj E'. destruct (run_evolves conf ops w k i (WInv_reachable _ _ R) Hi) as ([_ _ Ev _] & Hi' & _).
  apply Ev in E. destruct (ids_unique (run conf w ops) k (reachable_run w ops R)) as (A & _). eapply A; eauto.
Qed.

Lemma global_ids_unique (w : world FO) : reachable conf w ->
  (forall k i k' i' g, created w k i -> created w k' i' ->
     o_gid (obj w k i) = Some g -> o_gid (obj w k' i') = Some g -> k = k' /\ i = i') /\
  (forall k i g, created w k i -> o_gid (obj w k i) = Some g -> 1 <= g <= w_gcount w) /\
  (forall g, 1 <= g <= w_gcount w -> exists k i, created w k i /\ o_gid (obj w k i) = Some g).
Proof.
  intros R. pose proof (WInv_reachable _ _ R) as W. split; [|split].
  - apply (wi_ginj _ W).
  - intros k i g Hi E. apply (TInv_gid_some _ i g (wi_t _ W k) Hi E).
  - apply (wi_gsurj _ W).
Qed.

Lemma ids_none_iff_initializing (w : world FO) k i : reachable conf w -> created w k i ->
  (o_id (obj w k i) = None <-> o_initializing (obj w k i) = true) /\
  (o_gid (obj w k i) = None <-> o_initializing (obj w k i) = true) /\
  oc_iid (o_conf (obj w k i)) = i.
Proof.
  intros R Hi. pose proof (wi_t _ (WInv_reachable _ _ R) k) as T.
  pose proof (ti_init _ T i Hi) as A. pose proof (ti_done _ T i Hi) as B.
  pose proof (ti_iid _ T i Hi) as C. cbn in A, B, C. unfold obj.
  destruct (o_initializing (p_store (w_trackers w k) i)).
  - destruct (A eq_refl). tauto.
  - destruct (B eq_refl) as (a & g & -> & -> & _). repeat split; auto; discriminate.
Qed.

Lemma identity_stable (w : world FO) k ops i : reachable conf w -> created w k i ->
  let o := obj w k i in
  let o' := obj (run conf w ops) k i in
  created (run conf w ops) k i /\
  o_conf o' = o_conf o /\
  (o_initializing o = false -> o_initializing o' = false) /\
  (forall a, o_id o = Some a -> o_id o' = Some a) /\
  (forall g, o_gid o = Some g -> o_gid o' = Some g).
Proof.
  intros R Hi o o'. destruct (run_evolves conf ops w k i (WInv_reachable _ _ R) Hi) as ([A B C D] & E & _). auto.
Qed.

Lemma run_count ops : forall (w : world FO) k, WInv w ->
  p_count (w_trackers w k) <= p_count (w_trackers (run conf w ops) k).
Proof.
  induction ops as [|o ops IH]; intros w k W; cbn; auto.
  etransitivity; [|apply IH; apply WInv_exec; auto].
  destruct o as [r d|k' dets p ct]; cbn -[exec]; [auto|].
  destruct (exec_prims conf w k' dets p ct W) as (s' & H & -> & _). cbn.
  destruct (Nat.eq_dec k k') as [->|Hne]; [rewrite upd_same|rewrite upd_other by auto; auto].
  apply (prims_count _ _ _ H).
Qed.

Lemma total_count (w : world FO) k ops : reachable conf w ->
  total_object_count (focus w k) = n_initialized w k /\
  total_object_count (focus w k) <= total_object_count (focus (run conf w ops) k).
Proof.
  intros R. pose proof (WInv_reachable _ _ R) as W. split.
  - symmetry. apply (ti_count _ (wi_t _ W k)).
  - apply (run_count ops w k W).
Qed.
End P.

Lemma threads_duplicate_ids :
  forall g, exists schedule a, th_pc (th_run schedule (th_init g)) 0 = PDone a /\
                               th_pc (th_run schedule (th_init g)) 1 = PDone a.
Proof. intros g. exists [0; 1; 0; 1; 0; 1], (S g). cbn. auto. Qed.

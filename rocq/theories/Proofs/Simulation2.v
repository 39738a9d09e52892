(** Whole calls of [update] in two related runs. *)
From Coq Require Import ZArith Bool Arith String List Lia.
From Verif Require Import Model.Num Model.Base Model.Matching Model.Filter Model.Tracker Proofs.TrackerFrame Proofs.Simulation.
Import ListNotations.

Section Sim2.
Context {N : Num} {FO : filter_ops N}.
Notation st := (st FO).
Notation tobj := (tobj FO).
Notation det := (detection N).
Notation ct := (option (coord_transformation N)).
Notation abs_rel := (nat -> oconf N -> option (points N -> points N) -> option (points N -> points N) -> Prop).

Definition after_ct (T : ct) (a : option (points N -> points N)) : option (points N -> points N) :=
  match T with None => a | Some T => Some (ct_abs_to_rel T) end.
Lemma obj_update_ct_fields T (o : tobj) : erase (obj_update_ct T o) = erase o /\ o_last_det (obj_update_ct T o) = o_last_det o /\
  o_past (obj_update_ct T o) = o_past o /\ o_conf (obj_update_ct T o) = o_conf o /\ o_gid (obj_update_ct T o) = o_gid o /\
  o_abs_to_rel (obj_update_ct T o) = after_ct T (o_abs_to_rel o).
Proof. destruct T, o; repeat split. Qed.
Lemma sim_step own pd (pa pa' : abs_rel) pg h1 h2 base ct1 ct2 i (s1 s2 : st) :
  (forall conf a1 a2, pa i conf a1 a2 -> pa' i conf (after_ct ct1 a1) (after_ct ct2 a2)) ->
  (forall j conf a1 a2, j <> i -> pa j conf a1 a2 -> pa' j conf a1 a2) ->
  sim own pd pa pg h1 h2 base s1 s2 ->
  sim own pd pa' pg h1 h2 base (mod_obj i (fun o => obj_update_ct ct1 (tracker_step o)) s1) (mod_obj i (fun o => obj_update_ct ct2 (tracker_step o)) s2).
Proof.
  intros H1 H2 [A B C D E F G H I]. split; cbn; auto.
  intros j Hj. specialize (C j Hj). unfold upd. destruct (Nat.eqb_spec j i) as [->|Hne].
  - destruct (plain_rel own pa pg i _ _ _ (@plain_step N FO) C) as [X1 X2 X3 X4].
    destruct (obj_update_ct_fields ct1 (tracker_step (s_store s1 i))) as (Y1 & Y2 & Y3 & Y4 & Y5 & Y6).
    destruct (obj_update_ct_fields ct2 (tracker_step (s_store s2 i))) as (Z1 & Z2 & Z3 & Z4 & Z5 & Z6).
    split; [congruence|rewrite Y2, Y3; exact X2|rewrite Y4, Y6, Z6; apply H1, X3|rewrite Y5, Z5; exact X4].
  - destruct C as [X1 X2 X3 X4]. split; auto.
Qed.
Lemma sim_steps own pd pg h1 h2 base ct1 ct2 objs : forall (pa pa' : abs_rel) (s1 s2 : st),
  (forall i conf a1 a2, In i objs -> pa i conf a1 a2 -> pa' i conf (after_ct ct1 a1) (after_ct ct2 a2)) ->
  (forall i conf a1 a2, In i objs -> pa' i conf a1 a2 -> pa' i conf (after_ct ct1 a1) (after_ct ct2 a2)) ->
  (forall i conf a1 a2, ~ In i objs -> pa i conf a1 a2 -> pa' i conf a1 a2) ->
  sim own pd pa pg h1 h2 base s1 s2 ->
  sim own pd pa' pg h1 h2 base (step_objects ct1 objs s1) (step_objects ct2 objs s2).
Proof.
  induction objs as [|i objs IH]; intros pa pa' s1 s2 H1 H2 H3 HS; cbn [step_objects].
  - destruct HS as [A B C D E F G H I]. split; auto. intros j Hj. destruct (C j Hj) as [X1 X2 X3 X4]. split; auto.
  - apply (IH (fun j conf a1 a2 => if Nat.eqb j i then pa' j conf a1 a2 else pa j conf a1 a2)).
    + intros j conf a1 a2 Hj. destruct (Nat.eqb_spec j i) as [->|Hne]; intros X; [apply H2|apply H1]; cbn; auto.
    + intros j conf a1 a2 Hj. apply H2. right. exact Hj.
    + intros j conf a1 a2 Hj. destruct (Nat.eqb_spec j i) as [->|Hne]; intros X; auto. apply H3; auto. intros [->|Y]; auto.
    + eapply sim_step; [| |exact HS]; cbn beta.
      * intros conf a1 a2 X. rewrite Nat.eqb_refl. apply H1; cbn; auto.
      * intros j conf a1 a2 Hne X. destruct (Nat.eqb_spec j i); [congruence|exact X].
Qed.
Lemma prune_same own pd pa pg h1 h2 base cf (s1 s2 : st) : sim own pd pa pg h1 h2 base s1 s2 -> prune cf s1 = prune cf s2.
Proof.
  intros HS. unfold prune. rewrite <- (sm_tracked _ _ _ _ _ _ _ _ _ HS). pose proof (sm_known _ _ _ _ _ _ _ _ _ HS) as K.
  assert (P1 : forall o o' : tobj, erase o = erase o' -> hit_counter_is_positive o = hit_counter_is_positive o').
  { intros o o' E. destruct (core_fields _ _ E) as (_ & E2 & _). unfold hit_counter_is_positive. rewrite E2. reflexivity. }
  assert (P2 : forall o o' : tobj, erase o = erase o' -> reid_hit_counter_is_positive o = reid_hit_counter_is_positive o').
  { intros o o' E. destruct (core_fields _ _ E) as (_ & _ & E2 & _). unfold reid_hit_counter_is_positive. rewrite E2. reflexivity. }
  pose proof (fun f l => filter_same own pd pa pg h1 h2 base s1 s2 f l HS) as FS.
  destruct (tc_reid_max cf).
  - rewrite <- (FS _ (s_tracked s1) P2 K).
    assert (K' : Forall (known_in s1) (filter (fun i => reid_hit_counter_is_positive (s_store s1 i)) (s_tracked s1)))
      by (eapply Forall_incl; [apply filter_incl|exact K]).
    rewrite (FS _ _ P1 K'). rewrite (FS (fun o => negb (hit_counter_is_positive o)) _); auto. intros o o' E. rewrite (P1 o o' E). reflexivity.
  - rewrite (FS _ (s_tracked s1) P1 K). reflexivity.
Qed.
Lemma prune_incl cf (s : st) tr al de : prune cf s = (tr, al, de) -> incl tr (s_tracked s) /\ incl al tr /\ incl de tr.
Proof.
  intros E. pose proof (prune_spec cf s) as P. rewrite E in P. destruct P as (-> & -> & ->). repeat split; apply filter_incl.
Qed.

Definition detected (T : ct) (dets : list nat) (s : st) : st := match T with None => s | Some T => update_dets_ct T dets s end.
Definition survivors (cf : tconf FO) (s : st) : list nat := fst (fst (prune cf s)).
Definition call (cf : tconf FO) (dets : list nat) (p : Z) (T : ct) (s : st) : st * result (list nat) :=
  let '(alive, dead, s) := begin_update cf dets T s in associate cf alive dead dets p T s.

(** The states of the two runs after the coordinates of the detections were updated are related by [pa]; [pa']
    relates them from the step of the objects on. *)
Lemma sim_call own pd (pa pa' : abs_rel) pg h1 h2 cf dets p ct1 ct2 (s1 s2 : st) :
  let t1 := detected ct1 dets s1 in let t2 := detected ct2 dets s2 in
  let base := s_icount t1 in let act := fun i => In i (survivors cf t1) in let cur := fun r => In r dets in
  sim own pd pa pg h1 h2 base t1 t2 ->
  (forall r, In r dets -> own r) ->
  (forall i conf a1 a2, act i -> pa i conf a1 a2 -> pa' i conf (after_ct ct1 a1) (after_ct ct2 a2)) ->
  (forall i conf a1 a2, act i -> pa' i conf a1 a2 -> pa' i conf (after_ct ct1 a1) (after_ct ct2 a2)) ->
  (forall i conf a1 a2, ~ act i -> pa i conf a1 a2 -> pa' i conf a1 a2) ->
  (forall i conf r (u1 u2 : st), sim own pd pa' pg h1 h2 base u1 u2 -> cur r -> base < i ->
     oc_dim_points conf = first_dim (d_absolute_points (s_heap u1 r)) -> oc_num_points conf = List.length (d_absolute_points (s_heap u1 r)) ->
     pa' i conf (rel_of ct1) (rel_of ct2)) ->
  same_distances own pd pa' pg h1 h2 cur act base (tc_rnd cf) (tc_distance cf) ->
  (forall f, tc_reid_distance cf = Some f -> same_distances own pd pa' pg h1 h2 cur act base (tc_rnd cf) (ScalarDistance f)) ->
  agree own pd pa' pg h1 h2 base (call cf dets p ct1 s1) (call cf dets p ct2 s2).
Proof.
  intros t1 t2 base act cur HS Hown A1 A2 A3 Hnew Hd Hr. unfold call, begin_update. fold (detected ct1 dets s1). fold (detected ct2 dets s2).
  fold t1 t2. rewrite <- (prune_same _ _ _ _ _ _ _ cf t1 t2 HS). unfold survivors in act.
  destruct (prune cf t1) as [[tr al] de] eqn:Ep. cbn [fst] in act. apply prune_incl in Ep as (I1 & I2 & I3).
  pose proof (sm_known _ _ _ _ _ _ _ _ _ HS) as K. rewrite Forall_forall in K.
  assert (S1 : sim own pd pa pg h1 h2 base (s_set_tracked tr t1) (s_set_tracked tr t2)).
  { apply sim_tracked; auto. apply Forall_forall. intros i Hi. apply K, I1, Hi. }
  assert (S2 := sim_steps own pd pg h1 h2 base ct1 ct2 tr pa pa' _ _ A1 A2 A3 S1).
  eapply (sim_associate own pd pa' pg h1 h2 cur act base) with (rnd := tc_rnd cf); try exact S2; auto.
  - intros i Hi. apply I1, K in Hi. exact Hi.
  - apply Forall_forall. intros i Hi. apply I2, Hi.
  - apply Forall_forall. intros i Hi. apply I3, Hi.
  - apply Forall_forall. auto.
Qed.
Lemma update_call cf dets p T (s : st) : update cf (Some dets) p T s = call cf dets p T s.
Proof. unfold update, call. destruct T; reflexivity. Qed.
Lemma update_none cf p (s : st) : update cf None p None s = call cf [] p None s.
Proof. reflexivity. Qed.

(** ** Changing the parameters of [sim] *)
Lemma sim_params own (pd pd' : nat -> points N -> points N -> points N -> Prop) (pa pa' : abs_rel) (pg pg' : Prop) h1 h2 h1' h2' base base' (s1 s2 : st) :
  sim own pd pa pg h1 h2 base s1 s2 ->
  (forall r p1 p2 a, own r -> pd r p1 p2 a -> pd' r p1 p2 a) -> (forall i conf a1 a2, pa i conf a1 a2 -> pa' i conf a1 a2) -> (pg' -> pg) ->
  (forall r, ~ own r -> s_heap s1 r = h1' r /\ s_heap s2 r = h2' r) -> base' <= s_icount s1 ->
  sim own pd' pa' pg' h1' h2' base' s1 s2.
Proof.
  intros [A B C D E F G H I] H1 H2 H3 H4 H5. split; auto.
  - intros r Hr. destruct (A r Hr) as [X1 X2 X3 X4 X5 X6]. split; auto.
  - intros i Hi. destruct (C i Hi) as [X1 X2 X3 X4]. split; auto.
Qed.
Lemma sim_icount_detected T dets (s : st) : s_icount (detected T dets s) = s_icount s.
Proof. destruct T as [T|]; [|reflexivity]. cbn. revert s. induction dets as [|r dets IH]; intros s; cbn; [reflexivity|]. rewrite IH. reflexivity. Qed.
End Sim2.

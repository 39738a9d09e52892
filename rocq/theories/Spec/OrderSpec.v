(** Vocabulary for C92: two trackers that are given the same detections in a different order. *)
From Coq Require Import ZArith List Arith Bool Permutation.
From Verif Require Import Model.Num Model.Base Model.Matching Model.Filter Model.Tracker Spec.MatchingSpec Spec.CallSpec Spec.ExampleVideo
  Spec.LabelSpec Spec.DistanceSpec.
Import ListNotations.

Section S.
Context {N : Num} {FO : filter_ops N}.

(** The same call, with the list of detections in any other order. *)
Definition reordered (x y : input N) : Prop :=
  in_new y = in_new x /\ Permutation (in_dets x) (in_dets y) /\ in_period y = in_period x /\ in_ct y = in_ct x.

(** The distance of a candidate and an object is computed from these two alone: a scalar distance does not look at
    the numbers a tracker gives to objects, and a vectorized distance fills its table cell by cell, cell (c, o) with
    [g c o], and raises an exception if [g] is undefined for some cell. *)
Definition cell_by_cell (f : list (list N) -> list (list N) -> result (list (list (dval N)))) : Prop :=
  exists g : list N -> list N -> option (dval N), forall cs os D, cs <> [] -> os <> [] ->
    (f cs os = Ret D <-> Forall2 (fun c row => Forall2 (fun o d => g c o = Some d) os row) cs D).
Definition pairwise (d : distance FO) : Prop :=
  match d with
  | ScalarDistance f => number_blind f
  | VectorizedDistance f => cell_by_cell f
  end.

(** The tables of distances computed during a call, each with its threshold: detections and initialized objects;
    remaining detections and initializing objects; initializing objects that were just matched and objects that
    were not found (only with re-identification). *)
Definition tables (c : tconf FO) (dets : list nat) (p : Z) (ct : option (coord_transformation N)) (s : st FO)
  : list (dval N * matrix N) :=
  let '(alive, dead, s0) := begin_update c dets ct s in
  let table dist objects candidates s :=
    match get_distances (tc_rnd c) dist s objects candidates with Ret M => M | Raise _ => [] end in
  let ini := filter (fun i => negb (o_initializing (s_store s0 i))) alive in
  (tc_threshold c, table (tc_distance c) ini (map CDet dets) s0) ::
  match update_objects_in_place (tc_rnd c) (tc_distance c) (tc_threshold c) ini (map CDet dets) p s0 with
  | (_, Raise _) => []
  | (s1, Ret (rest, _, lost)) =>
    let uni := filter (fun i => o_initializing (s_store s1 i)) alive in
    (tc_threshold c, table (tc_distance c) uni rest s1) ::
    match update_objects_in_place (tc_rnd c) (tc_distance c) (tc_threshold c) uni rest p s1, tc_reid_distance c with
    | (s2, Ret (_, found, _)), Some f => [(tc_reid_threshold c, table (ScalarDistance f) (lost ++ dead) (map CObj found) s2)]
    | _, _ => []
    end
  end.

(** In no table do two different cells below the threshold hold equal distances. *)
Definition untied (c : tconf FO) (f : frame FO) : Prop :=
  forall thr M, In (thr, M) (tables c (f_dets f) (f_period f) (f_ct f) (f_pre f)) ->
    no_ties (length M) (ncols M) (entry M) thr.

(** The objects [is] of [s1] are, in some order, the objects [js] of [s2]; [R] says which object of one tracker is
    which object of the other. *)
Definition matched_up (R : nat -> nat -> Prop) (s1 s2 : st FO) (is js : list nat) : Prop :=
  exists js', Permutation js js' /\ Forall2 (fun i j => R i j /\ same_object s1 s2 i j) is js'.

(** Two calls with the same effect up to the order and the numbers of objects: the returned objects, the objects
    held, the count of all objects so far, and what was written to the detections. *)
Definition same_calls (R : nat -> nat -> Prop) (x y : frame FO) : Prop :=
  matched_up R (f_post x) (f_post y) (f_out x) (f_out y) /\
  matched_up R (f_post x) (f_post y) (s_tracked (f_post x)) (s_tracked (f_post y)) /\
  total_object_count (f_post x) = total_object_count (f_post y) /\
  forall r, s_heap (f_post x) r = s_heap (f_post y) r.

(** Decision procedures for examples. *)
Definition no_tiesb (n m : nat) (d : nat -> nat -> dval N) (thr : dval N) : bool :=
  forallb (fun x => forallb (fun y => negb (dltb (d (fst x) (snd x)) thr) || negb (dltb (d (fst y) (snd y)) thr) ||
      (Nat.eqb (fst x) (fst y) && Nat.eqb (snd x) (snd y)) || dltb (d (fst x) (snd x)) (d (fst y) (snd y)) || dltb (d (fst y) (snd y)) (d (fst x) (snd x)))
    (list_prod (seq 0 n) (seq 0 m))) (list_prod (seq 0 n) (seq 0 m)).
Lemma no_tiesb_ok n m d thr : no_tiesb n m d thr = true -> no_ties n m d thr.
Proof.
  unfold no_tiesb. rewrite forallb_forall. intros H i j i' j' Hi Hj Hi' Hj' L L' Hne.
  assert (A : In (i, j) (list_prod (seq 0 n) (seq 0 m))) by (apply in_prod; apply in_seq; split; auto with arith).
  assert (B : In (i', j') (list_prod (seq 0 n) (seq 0 m))) by (apply in_prod; apply in_seq; split; auto with arith).
  specialize (H _ A). rewrite forallb_forall in H. specialize (H _ B). cbn [fst snd] in H. unfold dlt in *. rewrite L, L' in H. cbn in H.
  apply orb_true_iff in H as [H|H]; [apply orb_true_iff in H as [H|H]|]; auto.
  apply andb_true_iff in H as [X Y]. apply Nat.eqb_eq in X, Y. subst. elim Hne. reflexivity.
Qed.
Definition untiedb (c : tconf FO) (f : frame FO) : bool :=
  forallb (fun x => no_tiesb (length (snd x)) (ncols (snd x)) (entry (snd x)) (fst x)) (tables c (f_dets f) (f_period f) (f_ct f) (f_pre f)).
Lemma untiedb_ok c fs : forallb (untiedb c) fs = true -> Forall (untied c) fs.
Proof.
  intros H. apply Forall_forall. intros f Hf thr M HM. rewrite forallb_forall in H. specialize (H f Hf). unfold untiedb in H. rewrite forallb_forall in H.
  apply (no_tiesb_ok _ _ _ _ (H _ HM)).
Qed.
End S.

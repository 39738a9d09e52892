(** C99: past_detections_length, pointwise_hit_counter_max, detection_threshold and the names of labels. *)
From Coq Require Import ZArith QArith Reals List Bool Arith String Lia.
From Verif Require Import Model.Num Model.Base Model.Matching Model.Filter Model.Float32 Model.Tracker Model.Distances
  Spec.CallSpec Spec.ExampleVideo Spec.ExampleTracker Spec.LabelSpec Spec.UnitSpec Spec.ParamSpec Proofs.ParamSim Proofs.ParamDistances.
Import ListNotations.
Local Open Scope nat_scope.

(** Two trackers are shown the same video; the second program uses other names for the labels and other values of
    [past_detections_length], [pointwise_hit_counter_max] and [detection_threshold], where the two detection thresholds
    count the same points as seen.  Every call has the same outcome: the same result (also the same exception), the same
    objects held, with the same ids, ages, counters, matched detections, filters and estimates.  Only the point
    counters, the past detections and the ages of detections may differ. *)
Theorem C99_parameters {N : Num} (FO : filter_ops N) (name : label -> label) (c c' : tconf FO) ins ins' h h' g dummy dummy' :
  (forall a b, name a = name b -> a = b) -> same_tracker name c c' ->
  (forall r, same_det name (h r) (h' r)) -> (forall r, same_points_seen c c' (h r)) ->
  Forall2 (same_input name) ins ins' -> Forall (fun x => Forall (fun rd => same_points_seen c c' (snd rd)) (in_new x)) ins ->
  no_replacement ins ->
  Forall2 (same_outcome name) (outcomes c (new_tracker h g dummy) ins) (outcomes c' (new_tracker h' g dummy') ins').
Proof. exact (fun Hn Hc => tracking_same name Hn c c' Hc ins ins' h h' g dummy dummy'). Qed.
Print Assumptions C99_parameters.

(** The library's distance functions look at none of these. *)
Theorem C99_builtin {FO : filter_ops RNum} (name : label -> label) :
  (forall s f, In (s, f) (@scalar_functions FO) -> same_values name f f) /\
  (forall t s, same_values (FO := FO) name (keypoints_voting_distance t s) (keypoints_voting_distance t s)) /\
  (forall height width, same_values (FO := FO) name (normalized_mean_euclidean_distance height width) (normalized_mean_euclidean_distance height width)).
Proof. exact (builtin_same name). Qed.
Print Assumptions C99_builtin.

(** With a distance function that looks at the past detections the length does matter: four detections of one thing, of
    which the distance function compares the first one that is remembered. *)
Definition ex99_first (c : cview exF) (o : oview exF) : result (dval QNum) :=
  let z := match c with VDet d => d_absolute_points d | VObj o' => estimate (v_obj o') end in
  let w := match v_past o with d :: _ => d_absolute_points d | [] => estimate (v_obj o) end in
  Ret (DFin (ex_abs (Qred (Qminus (ex_point z) (ex_point w))) : QNum)).
Definition ex99_conf f (past_len : nat) (pointwise : Z) (thr : Q) : tconf exF :=
  MkTconf (ScalarDistance f) (DFin (5%Q : QNum)) 3 1 pointwise (thr : QNum) past_len None (DFin (0%Q : QNum)) None round32.
Definition ex99_in (r : nat) (x : Q) (l : label) : input QNum := MkInput (N := QNum) [(r, new_detection [[(x : QNum)]] None [] l)] [r] 1%Z None.
Definition ex99_start : st exF := new_tracker (FO := exF) (fun _ => ex_det 0) 0 ex_dummy.
Definition ex99_ins (l : label) : list (input QNum) := [ex99_in 1 0 l; ex99_in 2 4 l; ex99_in 3 8 l].
Theorem C99_past_refuted : exists (f : cview exF -> oview exF -> result (dval QNum)) ins,
  map (fun a => snd a) (outcomes (ex99_conf f 0 3 0) ex99_start ins) <> map (fun a => snd a) (outcomes (ex99_conf f 2 3 0) ex99_start ins).
Proof. exists ex99_first, (ex99_ins LNone ++ [ex99_in 4 12 LNone]). vm_compute. discriminate. Qed.
Print Assumptions C99_past_refuted.

(* ---- concrete cases ---- *)
(** Labels "car" become 7 and the other way round; no past detections instead of two; point counters up to 1 instead of 3;
    another detection threshold, which does not matter for detections without scores. *)
Definition ex99_name (l : label) : label :=
  match l with LStr s => if String.eqb s "car" then LInt 7 else l | LInt z => if Z.eqb z 7 then LStr "car" else l | LNone => LNone end.
Lemma ex99_name_injective a b : ex99_name a = ex99_name b -> a = b.
Proof.
  destruct a as [|z|s], b as [|z'|s']; cbn; try congruence;
    repeat (match goal with |- context [Z.eqb ?x 7] => destruct (Z.eqb_spec x 7) | |- context [String.eqb ?x "car"] => destruct (String.eqb_spec x "car") end); subst; congruence.
Qed.
Lemma ex99_values : same_values ex99_name ex_distance ex_distance.
Proof.
  intros [d|v] [d'|v'] o o' Hc [Ho Hd]; cbn in Hc; try contradiction; unfold ex_distance; rewrite (so_estimate _ _ _ Ho).
  - rewrite (sd_absolute _ _ _ Hc). reflexivity.
  - rewrite (so_estimate _ _ _ (proj1 Hc)). reflexivity.
Qed.
Example ex99_same : same_tracker ex99_name (ex99_conf ex_distance 2 3 0) (ex99_conf ex_distance 0 1 (1 # 2)).
Proof. split; cbn; auto. exact ex99_values. Qed.
Example ex99_inputs : Forall2 (same_input ex99_name) (ex99_ins (LStr "car")) (ex99_ins (LInt 7)) /\ no_replacement (ex99_ins (LStr "car")).
Proof.
  split; [repeat constructor|]. intros before x after y r d E Hx Hy Hr.
  destruct before as [|b0 [|b1 [|b2 [|b3 before]]]]; cbn in E; injection E; clear E; intros; subst; cbn in *; try discriminate;
    repeat match goal with H : _ \/ _ |- _ => destruct H | H : False |- _ => destruct H | H : (_, _) = (_, _) |- _ => injection H; clear H; intros; subst end;
    subst; cbn in *; repeat match goal with H : _ \/ _ |- _ => destruct H | H : False |- _ => destruct H end; try discriminate.
Qed.
(** Three calls: the object is returned from the second one on, with id 1; past detections and point counters do differ. *)
Example ex99_run :
  map (fun a => (snd a, o_id (s_store (fst a) 1), o_past (s_store (fst a) 1), o_point_hits (s_store (fst a) 1)))
    (outcomes (ex99_conf ex_distance 2 3 0) ex99_start (ex99_ins (LStr "car"))) =
  [(Ret [], None, [1], [1%Z]); (Ret [1], Some 1, [1; 2], [2%Z]); (Ret [1], Some 1, [2; 3], [3%Z])] /\
  map (fun a => (snd a, o_id (s_store (fst a) 1), o_past (s_store (fst a) 1), o_point_hits (s_store (fst a) 1)))
    (outcomes (ex99_conf ex_distance 0 1 (1 # 2)) ex99_start (ex99_ins (LInt 7))) =
  [(Ret [], None, [], [1%Z]); (Ret [1], Some 1, [], [1%Z]); (Ret [1], Some 1, [], [1%Z])].
Proof. split; vm_compute; reflexivity. Qed.

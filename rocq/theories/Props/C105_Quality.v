(** C105: how good the matching is, and what a larger distance_threshold changes. *)
From Coq Require Import ZArith QArith Reals List Bool Arith Lia.
From Verif Require Import Model.Num Model.Base Model.Matching Model.Filter Model.Float32 Model.Tracker.
From Verif Require Import Spec.MatchingSpec Spec.CallSpec Spec.QualitySpec Spec.ExampleTracker Spec.ExampleVideo.
From Verif Require Import Proofs.NumLaws Proofs.Float32Proofs Proofs.Effect Proofs.GreedyQuality.
Import ListNotations.
Local Open Scope nat_scope.

(** One matching: no assignment of detections to objects below the threshold has more than twice as many pairs. *)
Theorem C105_at_least_half (N : Num) (laws : NumLaws N) rnd n m thr (M : matrix N) dis ois Q :
  rect n m M -> nan_free M -> dis_nan (rnd (dsucc thr)) = dis_nan thr -> match_dets_and_objs rnd thr M = Some (dis, ois) ->
  assignment n m (entry M) thr Q -> length Q <= 2 * length dis.
Proof. exact (fun R F K E A => match_half laws rnd n m thr M dis ois Q R F K E (proj1 A) (proj1 (proj2 A)) (proj2 (proj2 A))). Qed.
Print Assumptions C105_at_least_half.

(** The same for both steps of a call of update. *)
Theorem C105_update_at_least_half (N : Num) (laws : NumLaws N) (FO : filter_ops N) (c : tconf FO) dets p ct (s s' : st FO) out :
  rnd_ok (tc_rnd c) -> tracker_state c s -> update c (Some dets) p ct s = (s', Ret out) ->
  exists ini uni M1 M2 P1 P2,
    two_phases c dets s (snd (begin_update c dets ct s)) s' ini uni M1 M2 P1 P2 /\
    (forall Q, assignment (length dets) (length ini) (entry M1) (tc_threshold c) Q -> length Q <= 2 * length P1) /\
    (forall Q, assignment (length (others (map fst P1) 0 dets)) (length uni) (entry M2) (tc_threshold c) Q -> length Q <= 2 * length P2).
Proof. exact (call_half laws c dets p ct s s' out). Qed.
Print Assumptions C105_update_at_least_half.

(** The bound cannot be improved: for every [k] there are [2k] detections and [2k] objects that could all be
    paired, of which only [k] pairs are made. *)
Theorem C105_half_is_reached (k : nat) : exists (M : matrix QNum) dis ois Q,
  rect (2 * k) (2 * k) M /\ nan_free M /\ match_dets_and_objs (fun x => x) (DFin (3%Q : QNum)) M = Some (dis, ois) /\
  assignment (2 * k) (2 * k) (entry M) (DFin (3%Q : QNum)) Q /\ length dis = k /\ length Q = 2 * k.
Proof. exact (half_tight k). Qed.
Print Assumptions C105_half_is_reached.

(** When no row and no column has two cells below the threshold, all cells below the threshold are paired. *)
Theorem C105_no_competition (N : Num) (laws : NumLaws N) rnd n m thr (M : matrix N) dis ois :
  rect n m M -> nan_free M -> dis_nan (rnd (dsucc thr)) = dis_nan thr -> match_dets_and_objs rnd thr M = Some (dis, ois) ->
  (forall i j j', i < n -> j < m -> j' < m -> dlt (entry M i j) thr -> dlt (entry M i j') thr -> j = j') ->
  (forall i i' j, i < n -> i' < n -> j < m -> dlt (entry M i j) thr -> dlt (entry M i' j) thr -> i = i') ->
  forall i j, In (i, j) (combine dis ois) <-> i < n /\ j < m /\ dlt (entry M i j) thr.
Proof. exact (match_separated laws rnd n m thr M dis ois). Qed.
Print Assumptions C105_no_competition.

(** The total distance can exceed that of another assignment with as many pairs by any factor. *)
Theorem C105_total_refuted (K : R) : exists (w : list (list R)) thr dis ois Q,
  let M : matrix RNum := map (map (fun x => DFin (x : RNum))) w in
  rect 2 2 M /\ nan_free M /\ match_dets_and_objs (fun x => x) (DFin (thr : RNum)) M = Some (dis, ois) /\
  assignment 2 2 (entry M) (DFin (thr : RNum)) Q /\ length Q = length dis /\
  (0 < @total RNum w Q /\ K * @total RNum w Q < @total RNum w (combine dis ois))%R.
Proof. exact (total_unbounded K). Qed.
Print Assumptions C105_total_refuted.

(** A larger threshold keeps all pairs and adds only pairs that were not below the smaller threshold. *)
Theorem C105_larger_threshold (N : Num) (laws : NumLaws N) rnd rnd' n m thr thr' (M : matrix N) dis ois dis' ois' :
  rect n m M -> nan_free M -> dis_nan (rnd (dsucc thr)) = dis_nan thr -> dis_nan (rnd' (dsucc thr')) = dis_nan thr' ->
  dis_nan thr' = false -> dle thr thr' ->
  match_dets_and_objs rnd thr M = Some (dis, ois) -> match_dets_and_objs rnd' thr' M = Some (dis', ois') ->
  exists nd no, dis' = dis ++ nd /\ ois' = ois ++ no /\ forall i j, In (i, j) (combine nd no) -> ~ dlt (entry M i j) thr.
Proof. exact (match_larger laws rnd rnd' n m thr thr' M dis ois dis' ois'). Qed.
Print Assumptions C105_larger_threshold.

(** One call of update, from the same state, with a larger distance_threshold: the same objects and distances in
    the first step, and every pair of the first step is made again. *)
Theorem C105_update_larger_threshold (N : Num) (laws : NumLaws N) (FO : filter_ops N) (c : tconf FO) t dets p ct (s s1 s2 : st FO) out1 out2 :
  rnd_ok (tc_rnd c) -> tracker_state c s -> dis_nan t = false -> dle (tc_threshold c) t -> dets <> [] ->
  update c (Some dets) p ct s = (s1, Ret out1) -> update (with_threshold c t) (Some dets) p ct s = (s2, Ret out2) ->
  exists ini uni M1 M2 M2' P1 P2 P2' new,
    two_phases c dets s (snd (begin_update c dets ct s)) s1 ini uni M1 M2 P1 P2 /\
    two_phases (with_threshold c t) dets s (snd (begin_update c dets ct s)) s2 ini uni M1 M2' (P1 ++ new) P2' /\
    forall a b, In (a, b) new -> ~ dlt (entry M1 a b) (tc_threshold c).
Proof. exact (call_larger laws c t dets p ct s s1 s2 out1 out2). Qed.
Print Assumptions C105_update_larger_threshold.

(* ---- object 1 is initialized and near 3, object 2 is initializing and at 20; then a detection at 16 ---- *)
Definition ex105_mid : st exF := last_state ex_s3 (frames ex_conf ex_s3 [MkInput [(4, ex_det 3); (5, ex_det 20)] [4; 5] 1 None]).
Definition ex105_s : st exF := meanwhile ex105_mid (fun r => if Nat.eqb r 6 then ex_det 16 else s_heap ex105_mid r) (s_gcount ex105_mid).
Definition ex105_t : dval QNum := DFin (15%Q : QNum).
Lemma ex105_state : tracker_state ex_conf ex105_s.
Proof. constructor; [|lia]. apply last_state_ok; [exact ex_s3_state|]. apply frames_video. vm_compute. reflexivity. Qed.

Lemma returned {A B} (p : A * B) b : snd p = b -> p = (fst p, b).
Proof. intros <-. destruct p. reflexivity. Qed.

(** In the second step pairs can get lost: an initializing object that is matched with the smaller threshold is
    left without detection with the larger one, because an initialized object now takes the detection. *)
Theorem C105_second_step_refuted : exists (c : tconf exF) t s dets p s1 s2 out1 out2 i,
  rnd_ok (tc_rnd c) /\ tracker_state c s /\ dis_nan t = false /\ dle (tc_threshold c) t /\
  update c (Some dets) p None s = (s1, Ret out1) /\ update (with_threshold c t) (Some dets) p None s = (s2, Ret out2) /\
  tracked s i /\ ~ In (last_det s i) dets /\ In (last_det s1 i) dets /\ ~ In (last_det s2 i) dets.
Proof.
  exists ex_conf, ex105_t, ex105_s, [6], 1%Z, (fst (update ex_conf (Some [6]) 1 None ex105_s)),
    (fst (update (with_threshold ex_conf ex105_t) (Some [6]) 1 None ex105_s)), [1; 2], [1], 2.
  split; [exact round32_not_nan|]. split; [exact ex105_state|]. split; [reflexivity|]. split; [reflexivity|].
  split; [apply returned; vm_compute; reflexivity|]. split; [apply returned; vm_compute; reflexivity|].
  split; [vm_compute; auto|]. split; [vm_compute; lia|]. split; [vm_compute; auto|vm_compute; lia].
Qed.
Print Assumptions C105_second_step_refuted.

(* ---- a table with competition: the pair at distance 1 leaves row 1 and column 0 alone ---- *)
Definition ex105_M : matrix QNum := [[DFin (2%Q : QNum); DFin (1%Q : QNum)]; [DFin (9%Q : QNum); DFin (2%Q : QNum)]].
Example ex105_greedy : match_dets_and_objs round32 (DFin (3%Q : QNum)) ex105_M = Some ([0], [1]).
Proof. vm_compute. reflexivity. Qed.
Example ex105_better : assignment 2 2 (entry ex105_M) (DFin (3%Q : QNum)) [(0, 0); (1, 1)].
Proof.
  split; [split; repeat constructor; cbn; intuition discriminate|]. split; intros i j [E|[E|[]]]; injection E as <- <-; try (split; lia); reflexivity.
Qed.
Example ex105_larger : match_dets_and_objs round32 (DFin (10%Q : QNum)) ex105_M = Some ([0; 1], [1; 0]).
Proof. vm_compute. reflexivity. Qed.

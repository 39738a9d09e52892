(** C101: distances are stored in float32: the nearest of the 24-bit numbers, ties to even. *)
From Coq Require Import ZArith QArith Reals Qreals List.
From Flocq Require Import Core.
From Verif Require Import Model.Num Model.Base Model.Matching Model.Filter Model.Float32 Model.Tracker
  Spec.MatchingSpec Spec.ExampleTracker Spec.ExampleVideo Spec.CallSpec Spec.PhasesSpec Spec.Float32Spec
  Proofs.NumLaws Proofs.Effect Proofs.Float32Nearest Proofs.Float32Store.
Import ListNotations.
Local Open Scope R_scope.

(** Every finite number is stored as the IEEE 754 binary32 number next to it, or as infinity. *)
Theorem C101_nearest (q : Q) : stored_as (Q2R q) (round32 (DFin (q : QNum))).
Proof. exact (round32_nearest q). Qed.
Print Assumptions C101_nearest.

(** A stored number is a float32 number, and no float32 number is closer to the original. *)
Theorem C101_closest (q r : Q) : round32 (DFin (q : QNum)) = DFin (r : QNum) ->
  float32 (Q2R r) /\ forall y, float32 y -> Rabs (Q2R r - Q2R q) <= Rabs (y - Q2R q).
Proof. exact (store_closest q r). Qed.
Print Assumptions C101_closest.

(** float32 numbers are stored exactly. *)
Theorem C101_exact (q : Q) : float32 (Q2R q) -> exists r, round32 (DFin (q : QNum)) = DFin (r : QNum) /\ (r == q)%Q.
Proof. exact (store_exact q). Qed.
Print Assumptions C101_exact.

(** Storing never reverses the order of two distances. *)
Theorem C101_order (q q' : Q) : (q <= q')%Q -> dle (round32 (DFin (q : QNum))) (round32 (DFin (q' : QNum))).
Proof. exact (store_order q q'). Qed.
Print Assumptions C101_order.

(** The distance an object remembers for the detection it got is the stored value of what the distance function returned. *)
Theorem C101_remembered (FO : filter_ops QNum) (c : tconf FO) f dets p ct (s s' : st FO) out :
  tc_rnd c = round32 -> tc_distance c = ScalarDistance f -> tracker_state c s -> update c (Some dets) p ct s = (s', Ret out) ->
  exists ini uni M1 M2 P1 P2, let s0 := snd (begin_update c dets ct s) in let rest := others (map fst P1) 0 dets in
    two_phases c dets s s0 s' ini uni M1 M2 P1 P2 /\
    (forall a b, In (a, b) P1 -> remembers f s0 s' (nth a dets O) (nth b ini O)) /\
    (forall a b, In (a, b) P2 -> remembers f s0 s' (nth a rest O) (nth b uni O)).
Proof. exact (call_remembers c f dets p ct s s' out). Qed.
Print Assumptions C101_remembered.

(** But different distances can become equal: 2^24 + 1 is stored as 2^24, and the order is not kept strictly. *)
Theorem C101_strict_refuted : exists q q' : Q, (q < q')%Q /\ round32 (DFin (q : QNum)) = round32 (DFin (q' : QNum)).
Proof. exact store_collapses. Qed.
Print Assumptions C101_strict_refuted.

(* ---- concrete cases ---- *)
Example ex101_third : round32 (DFin ((1 # 3)%Q : QNum)) = DFin ((11184811 # 33554432)%Q : QNum).
Proof. vm_compute. reflexivity. Qed.
(** Ties go to the even significand; above the largest float32 number comes infinity; the smallest is 2^-149. *)
Example ex101_ties : map (fun z => round32 (DFin (inject_Z z : QNum))) [2 ^ 24 + 1; 2 ^ 24 + 3; 2 ^ 128 - 2 ^ 103; 2 ^ 128 - 2 ^ 103 - 1; - 2 ^ 128]%Z =
  [DFin (inject_Z (2 ^ 24) : QNum); DFin (inject_Z (2 ^ 24 + 4) : QNum); DPInf; DFin (inject_Z (2 ^ 128 - 2 ^ 104) : QNum); DNInf].
Proof. vm_compute. reflexivity. Qed.
Example ex101_tiny : map (fun n => round32 (DFin ((n # (2 ^ 150))%Q : QNum))) [1; 3]%Z = [DFin ((0 # (2 ^ 149))%Q : QNum); DFin ((2 # (2 ^ 149))%Q : QNum)].
Proof. vm_compute. reflexivity. Qed.
(** A number that is stored exactly. *)
Example ex101_float32 : float32 (Q2R (5 # 8)).
Proof. exact five_eighths. Qed.

(** Object 1 gets a detection 5/3 away from its estimate, then object 2 one 2/5 away. *)
Definition ex101 : list (CallSpec.frame exF) := frames ex_conf ex_start
  (ex_warm ++ [MkInput [(4%nat, ex_det (1 # 3)); (5%nat, ex_det 40)] [5; 4]%nat 1 None; MkInput [(6%nat, ex_det (202 # 5))] [6%nat] 1 None]).
Example ex101_video : video ex_conf ex_start ex101 /\ tc_rnd ex_conf = round32 /\ tc_distance ex_conf = ScalarDistance ex_distance.
Proof. split; [apply frames_video; vm_compute; reflexivity|split; reflexivity]. Qed.
Example ex101_outcome : map (fun f => map (last_distance (f_post f)) (s_tracked (f_post f))) (skipn 3 ex101) =
  [[Some (DFin ((13981013 # 8388608)%Q : QNum)); None]; [Some (DFin ((13981013 # 8388608)%Q : QNum)); Some (DFin ((13421773 # 33554432)%Q : QNum))]].
Proof. vm_compute. reflexivity. Qed.

(** C01-C04: the greedy matching of detections and objects. *)
From Coq Require Import ZArith QArith Reals Bool List Arith Lia.
From Verif Require Import Model.Num Model.Matching Model.Float32 Spec.MatchingSpec
  Proofs.NumLaws Proofs.MatchingProofs Proofs.Float32Proofs Proofs.MatchingFloat32.
Import ListNotations.
Local Open Scope nat_scope.

(** [rnd] is the conversion of a number to the dtype of the matrix; it maps numbers to numbers. *)

(** C01: whenever the call returns, the two index lists pair rows and columns one-to-one, in range,
    strictly below the threshold. *)
Theorem C01_matching_one_to_one (N : Num) (laws : NumLaws N) rnd n m thr (M : matrix N) dis ois :
  rect n m M -> nan_free M -> dis_nan (rnd (dsucc thr)) = dis_nan thr ->
  match_dets_and_objs rnd thr M = Some (dis, ois) ->
  length dis = length ois /\
  one_to_one (combine dis ois) /\ in_range n m (combine dis ois) /\ below (entry M) thr (combine dis ois).
Proof.
  exact (fun HM Hn Hr E =>
    let r := match_correct laws rnd n m thr M dis ois HM Hn Hr E in
    conj (proj1 r) (conj (proj1 (proj2 r)) (conj (proj1 (proj2 (proj2 r))) (proj1 (proj2 (proj2 (proj2 r))))))).
Qed.
Print Assumptions C01_matching_one_to_one.

(** C02: no blocking pair, and the pairs are produced in non-decreasing order of distance. *)
Theorem C02_matching_stable (N : Num) (laws : NumLaws N) rnd n m thr (M : matrix N) dis ois :
  rect n m M -> nan_free M -> dis_nan (rnd (dsucc thr)) = dis_nan thr ->
  match_dets_and_objs rnd thr M = Some (dis, ois) ->
  stable n m (entry M) thr (combine dis ois) /\ nondecreasing (entry M) (combine dis ois).
Proof.
  exact (fun HM Hn Hr E => proj2 (proj2 (proj2 (proj2 (match_correct laws rnd n m thr M dis ois HM Hn Hr E))))).
Qed.
Print Assumptions C02_matching_stable.

(** C03, exact storage: the loop stops after at most min(n, m) rounds, for every threshold. *)
Theorem C03_matching_terminates (N : Num) (laws : NumLaws N) n m thr (M : matrix N) :
  rect n m M -> nan_free M ->
  exists dis ois,
    match_loop (Nat.min n m) (dsucc thr) thr M [] [] = Some (dis, ois)
    /\ match_dets_and_objs (fun x => x) thr M = Some (dis, ois)
    /\ length dis <= Nat.min n m.
Proof.
  exact (fun HM Hn => match_terminates laws (fun x => x) n m thr M HM Hn
                        (dis_nan_succ thr) (dsucc_ge laws thr)).
Qed.
Print Assumptions C03_matching_terminates.

(** C03, float32 storage as in the code: termination for thresholds up to 2^24 in absolute value. *)
Theorem C03_matching_terminates_float32 n m (thr : Q) (M : matrix QNum) :
  (- inject_Z (2 ^ 24) <= thr <= inject_Z (2 ^ 24))%Q ->
  rect n m M -> nan_free M ->
  exists dis ois,
    match_loop (Nat.min n m) (round32 (dsucc (DFin (thr : QNum)))) (DFin (thr : QNum)) M [] [] = Some (dis, ois)
    /\ match_dets_and_objs round32 (DFin (thr : QNum)) M = Some (dis, ois)
    /\ length dis <= Nat.min n m.
Proof.
  exact (fun Ht HM Hn => match_terminates QNum_laws round32 n m (DFin (thr : QNum)) M HM Hn
                        (round32_not_nan _) (round32_succ_ge thr Ht)).
Qed.
Print Assumptions C03_matching_terminates_float32.

(** C03, exact characterisation of divergence for any storage format: the loop never returns exactly
    when storing [thr + 1] gives a value below [thr] and some pair is below the threshold. *)
Theorem C03_matching_diverges_iff (N : Num) (laws : NumLaws N) rnd n m thr (M : matrix N) :
  rect n m M -> nan_free M -> dis_nan (rnd (dsucc thr)) = dis_nan thr ->
  ((forall rounds, match_loop rounds (rnd (dsucc thr)) thr M [] [] = None) <->
   dlt (rnd (dsucc thr)) thr /\ exists i j, i < n /\ j < m /\ dlt (entry M i j) thr).
Proof. exact (match_diverges_iff laws rnd n m thr M). Qed.
Print Assumptions C03_matching_diverges_iff.

(** C03 as stated (every threshold) is false for the float32 matrix the code uses: with
    distance_threshold = 2^25 + 1 and a single pair at distance 0, no number of rounds is enough. *)
Theorem C03_refuted_large_threshold :
  exists (thr : dval QNum) (M : matrix QNum),
    rect 1 1 M /\ nan_free M /\ forall rounds, match_loop rounds (round32 (dsucc thr)) thr M [] [] = None.
Proof. exact float32_divergence. Qed.
Print Assumptions C03_refuted_large_threshold.

(** C04: without ties below the threshold, two assignments that are one-to-one, in range, below the
    threshold and stable are equal ... *)
Theorem C04_stable_matching_unique (N : Num) (laws : NumLaws N) n m (d : nat -> nat -> dval N) thr A B :
  no_ties n m d thr ->
  one_to_one A -> in_range n m A -> below d thr A -> stable n m d thr A ->
  one_to_one B -> in_range n m B -> below d thr B -> stable n m d thr B ->
  forall i j, In (i, j) A <-> In (i, j) B.
Proof.
  exact (fun Ht a1 a2 a3 a4 b1 b2 b3 b4 =>
    stable_unique laws n m d thr A B Ht (conj a1 (conj a2 (conj a3 a4))) (conj b1 (conj b2 (conj b3 b4)))).
Qed.
Print Assumptions C04_stable_matching_unique.

(** ... and so permuting rows and columns permutes the matched pairs. *)
Theorem C04_matching_order_independent (N : Num) (laws : NumLaws N) rnd n m thr (M M' : matrix N) s t dis ois dis' ois' :
  rect n m M -> rect n m M' -> nan_free M -> nan_free M' -> dis_nan (rnd (dsucc thr)) = dis_nan thr ->
  perm_of n s -> perm_of m t ->
  (forall i j, i < n -> j < m -> entry M' i j = entry M (s i) (t j)) ->
  no_ties n m (entry M) thr ->
  match_dets_and_objs rnd thr M = Some (dis, ois) ->
  match_dets_and_objs rnd thr M' = Some (dis', ois') ->
  forall i j, i < n -> j < m ->
    (In (i, j) (combine dis' ois') <-> In (s i, t j) (combine dis ois)).
Proof. exact (match_permute laws rnd n m thr M M' s t dis ois dis' ois'). Qed.
Print Assumptions C04_matching_order_independent.

(* ---- concrete cases meeting the hypotheses ---- *)
Definition ex_M : matrix QNum :=
  [[DFin (3%Q : QNum); DPInf; DFin (1%Q : QNum)];
   [DFin (2%Q : QNum); DFin ((5 # 2)%Q : QNum); DFin ((3 # 2)%Q : QNum)]].
Definition ex_thr : dval QNum := DFin (4%Q : QNum).
Example ex_match : match_dets_and_objs round32 ex_thr ex_M = Some ([0; 1], [2; 0]).
Proof. vm_compute. reflexivity. Qed.
Example ex_rect : rect 2 3 ex_M /\ nan_free ex_M.
Proof. vm_compute. auto. Qed.
(** the same table with rows and columns swapped around *)
Definition ex_M' : matrix QNum :=
  [[DFin ((5 # 2)%Q : QNum); DFin ((3 # 2)%Q : QNum); DFin (2%Q : QNum)];
   [DPInf; DFin (1%Q : QNum); DFin (3%Q : QNum)]].
Example ex_match' : match_dets_and_objs round32 ex_thr ex_M' = Some ([1; 0], [1; 2]).
Proof. vm_compute. reflexivity. Qed.
Example ex_no_ties : no_ties 2 3 (entry ex_M) ex_thr.
Proof.
  intros i j i' j' Hi Hj Hi' Hj' H H' Hne.
  assert (i = 0 \/ i = 1) as [-> | ->] by lia; assert (i' = 0 \/ i' = 1) as [-> | ->] by lia;
  assert (j = 0 \/ j = 1 \/ j = 2) as [-> | [-> | ->]] by lia;
  assert (j' = 0 \/ j' = 1 \/ j' = 2) as [-> | [-> | ->]] by lia;
  first [exfalso; apply Hne; reflexivity | left; reflexivity | right; reflexivity].
Qed.

(** C08: scalar and vectorized distances agree. *)
From Coq Require Import ZArith QArith Bool Arith String List.
From Verif Require Import Model.Num Model.Base Model.Matching Model.Filter Model.Float32 Model.Tracker
  Spec.DistanceSpec Spec.ExampleTracker Spec.ExampleVideo Proofs.DistanceProofs Proofs.CallTheorems8.
From Verif Require Import Spec.CallSpec.
Import ListNotations.
Local Open Scope nat_scope.

(** Labels that are all None, all ints or all strings. *)
Theorem C08_vectorized_agrees_partial (N : Num) (FO : filter_ops N) rnd f g (s : st FO) objects candidates :
  pointwise f g -> one_kind s objects candidates -> uniform s objects candidates ->
  get_distances rnd (VectorizedDistance f) s objects candidates = get_distances rnd (ScalarDistance (scalar_of g)) s objects candidates
  /\ get_distances rnd (VectorizedDistance f) s objects candidates = Ret (expected_matrix rnd g s objects candidates).
Proof. exact (vectorized_scalar rnd f g s objects candidates). Qed.
Print Assumptions C08_vectorized_agrees_partial.

(** The exact law, for labels of any kinds: a vectorized distance takes labels that are printed alike for equal, and
    agrees with the scalar distance exactly if it makes candidates and objects with different labels that are printed
    alike infinitely distant. *)
Theorem C08_vectorized_law (N : Num) (FO : filter_ops N) rnd f g (s : st FO) objects candidates :
  pointwise f g -> uniform_printed s objects candidates ->
  get_distances rnd (VectorizedDistance f) s objects candidates = Ret (printed_matrix rnd g s objects candidates) /\
  ((forall c i, In c candidates -> In i objects ->
      label_str (cand_label s c) = label_str (obj_label s i) -> cand_label s c <> obj_label s i ->
      rnd (g (coords (view_cand s c)) (concat (estimate (s_store s i)))) = DPInf) <->
   get_distances rnd (VectorizedDistance f) s objects candidates = get_distances rnd (ScalarDistance (scalar_of g)) s objects candidates).
Proof. exact (printed_scalar rnd f g s objects candidates). Qed.
Print Assumptions C08_vectorized_law.

(** Which labels are printed alike: an int and the string of its digits, and None and the string "None". *)
Theorem C08_printed_alike a b : label_str a = label_str b <->
  a = b \/ (a = LNone /\ b = LStr "None") \/ (a = LStr "None" /\ b = LNone) \/
  (exists z, a = LInt z /\ b = LStr (str_of_Z z)) \/ (exists z, a = LStr (str_of_Z z) /\ b = LInt z).
Proof. exact (printed_alike a b). Qed.
Print Assumptions C08_printed_alike.
Example ex8_digits : map str_of_Z [0; 7; 10; 1234567890; -20]%Z = ["0"; "7"; "10"; "1234567890"; "-20"]%string.
Proof. vm_compute. reflexivity. Qed.

(** The scalar side needs no assumption. *)
Theorem C08_scalar_matrix (N : Num) (FO : filter_ops N) rnd g (s : st FO) objects candidates :
  get_distances rnd (ScalarDistance (scalar_of g)) s objects candidates = Ret (expected_matrix rnd g s objects candidates).
Proof. exact (scalar_expected rnd g s objects candidates). Qed.
Print Assumptions C08_scalar_matrix.

(** C08 is false for labels of different types, because the vectorized code compares str(label): after a call
    with a detection labelled 1 (an int), a detection labelled "1" is at distance 0 from the object for the
    vectorized distance and at distance infinity for the scalar one. *)
Definition ex8_dist (x y : list QNum) : dval QNum :=
  match x, y with a :: _, b :: _ => DFin (ex_abs (Qred (a - b)) : QNum) | _, _ => DPInf end.
Definition ex8_vec (cs os : list (list QNum)) : result (list (list (dval QNum))) :=
  Ret (map (fun c => map (ex8_dist c) os) cs).
Definition ex8_conf : tconf exF :=
  MkTconf (VectorizedDistance ex8_vec) (DFin (5%Q : QNum)) 3 1 3 (0%Q : QNum) 2 None (DFin (0%Q : QNum)) None round32.
Definition ex8_det (l : label) (x : Q) : detection QNum := new_detection [[(x : QNum)]] None [] l.
Definition ex8_start : st exF := meanwhile ex_start (put (fun _ => ex_det 0) [(1, ex8_det (LInt 1) 0); (2, ex8_det (LStr "1") 0);
  (3, ex8_det (LInt 2) 7); (4, ex8_det (LInt 1) 2); (5, ex8_det (LInt 3) 7)]) 0.
Lemma ex8_state : tracker_state ex8_conf (fst (update ex8_conf (Some [1]) 1 None ex8_start)).
Proof. apply ts_update. apply (ts_meanwhile ex8_conf ex_start); [apply ex_start_state|vm_compute; repeat constructor]. Qed.
Theorem C08_vectorized_agrees_refuted : exists f g (s : st exF) i r,
  pointwise f g /\ tracker_state ex8_conf s /\ tracked s i /\ uniform s [i] [CDet r] /\
  d_label (s_heap s r) = LStr "1" /\ obj_label s i = LInt 1 /\
  get_distances round32 (VectorizedDistance f) s [i] [CDet r] = Ret [[DFin (0%Q : QNum)]] /\
  get_distances round32 (ScalarDistance (scalar_of g)) s [i] [CDet r] = Ret [[DPInf]].
Proof.
  exists ex8_vec, ex8_dist, (fst (update ex8_conf (Some [1]) 1 None ex8_start)), 1, 2.
  split; [intros cs os; reflexivity|]. split; [exact ex8_state|]. split; [by_in|].
  split; [split; intros a b [<-|[]] [<-|[]] _; reflexivity|].
  split; [vm_compute; reflexivity|]. split; [vm_compute; reflexivity|]. split; vm_compute; reflexivity.
Qed.
Print Assumptions C08_vectorized_agrees_refuted.

(** A case for the positive theorem: two objects with labels 1 and 2, candidates with labels 1, 3 and 2. *)
Definition ex8_s : st exF := fst (update ex8_conf (Some [1; 3]) 1 None ex8_start).
Example ex8_hyps : one_kind ex8_s [1; 2] [CDet 4; CDet 5; CDet 3] /\ uniform ex8_s [1; 2] [CDet 4; CDet 5; CDet 3].
Proof.
  split.
  - replace (one_kind ex8_s [1; 2] [CDet 4; CDet 5; CDet 3]) with
      (forall a b, In a [LInt 1; LInt 2; LInt 1; LInt 3; LInt 2] -> In b [LInt 1; LInt 2; LInt 1; LInt 3; LInt 2] -> same_kind a b)
      by (vm_compute; reflexivity).
    intros a b Ha Hb. cbn in Ha, Hb. destruct a, b; cbn; auto; exfalso;
      repeat (destruct Ha as [Ha|Ha]; try discriminate); repeat (destruct Hb as [Hb|Hb]; try discriminate); auto.
  - split.
    + intros a b [<-|[<-|[]]] [<-|[<-|[]]] _; vm_compute; reflexivity.
    + intros a b [<-|[<-|[<-|[]]]] [<-|[<-|[<-|[]]]] _; vm_compute; reflexivity.
Qed.
Example ex8_outcome :
  get_distances (fun x => x) (VectorizedDistance ex8_vec) ex8_s [1; 2] [CDet 4; CDet 5; CDet 3] =
  Ret [[DFin (2%Q : QNum); DPInf]; [DPInf; DPInf]; [DPInf; DFin (0%Q : QNum)]].
Proof. vm_compute. reflexivity. Qed.
(** A case for the exact law: the candidate labelled "1" and the object labelled 1. *)
Example ex8_printed : uniform_printed ex8_s [1; 2] [CDet 2; CDet 3] /\
  get_distances (fun x => x) (VectorizedDistance ex8_vec) ex8_s [1; 2] [CDet 2; CDet 3] =
  Ret [[DFin (0%Q : QNum); DPInf]; [DPInf; DFin (0%Q : QNum)]].
Proof.
  split; [split|vm_compute; reflexivity].
  - intros a b [<-|[<-|[]]] [<-|[<-|[]]] _; vm_compute; reflexivity.
  - intros a b [<-|[<-|[]]] [<-|[<-|[]]] _; vm_compute; reflexivity.
Qed.

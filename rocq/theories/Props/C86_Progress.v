(** C86: well-formed calls return. *)
From Coq Require Import ZArith QArith Qcanon Reals Bool List Arith Lia String.
From Verif Require Import Model.Num Model.Base Model.Matching Model.Filter Model.KalmanMatrix Model.Float32 Model.Tracker Model.Distances
  Spec.MatchingSpec Spec.KalmanSpec Spec.ExampleTracker Spec.ExampleVideo Spec.ExamplePoints Spec.LabelSpec Spec.ProgressSpec.
From Verif Require Import Spec.CallSpec Spec.PointSpec.
From Verif Require Import Proofs.NumLaws Proofs.RingNums Proofs.Float32Proofs Proofs.FilterTracker Proofs.KalmanTheorems Proofs.Progress Proofs.ProgressBuiltin.
Import ListNotations.
Local Open Scope nat_scope.

Theorem C86_calls_return {N : Num} (laws : NumLaws N) (FO : filter_ops N) wf (n dim : nat) (c : tconf FO) ins heap g dummy :
  regular FO wf -> 0 < n -> 0 < dim -> usable n dim c -> well_formed_calls n dim ins ->
  exists fs, play c (new_tracker heap g dummy) ins = Some fs /\ List.length fs = List.length ins.
Proof. exact (fun R Hn Hd => new_tracker_returns laws n dim wf Hn Hd R c ins heap g dummy). Qed.
Print Assumptions C86_calls_return.

(** The filters of the library are regular. *)
Theorem C86_filters (N : Num) : (exists wf, regular (nofilter_ops N) wf) /\
  (forall p : okf_params N, exists wf, regular (okf_ops p) wf) /\
  (forall inv (p : fp_params), inverts_diagonal inv -> (0 < fp_R p)%R -> (0 <= fp_Q p)%R -> (0 <= fp_P p)%R -> exists wf, regular (fp_ops inv p) wf).
Proof. exact (filters_regular N). Qed.
Print Assumptions C86_filters.

(** The scalar distances of the library are defined for detections with points. *)
Theorem C86_builtin_distances (FO : filter_ops RNum) (n dim : nat) name f : 0 < n ->
  lookup name (scalar_functions (FO := FO)) = Some f -> distance_defined (FO := FO) n dim (ScalarDistance f).
Proof. exact (builtin_defined FO n dim name f). Qed.
Print Assumptions C86_builtin_distances.

(** With "iou" a call can raise, although all detections are proper boxes. *)
Theorem C86_iou_refuted : exists (FO : filter_ops QcNum) (c : tconf FO) ins x fs,
  tc_distance c = VectorizedDistance (@iou QcNum) /\ well_formed_calls 2 2 (ins ++ [x]) /\
  (forall y r d, In y (ins ++ [x]) -> In (r, d) (in_new y) -> proper_box d) /\
  play c (pt_start FO) ins = Some fs /\ result_of c (f_post (last fs (pt_noframe FO))) x = Raise EValueError.
Proof. exact iou_raises. Qed.
Print Assumptions C86_iou_refuted.

(* ---- a tracker with re-identification, two detections per call, one passed twice, misses ---- *)
Definition c86_in (rs : list (nat * Q)) (dets : list nat) : input QNum := MkInput (map (fun x => (fst x, ex_det (snd x))) rs) dets 1%Z None.
Definition c86_ins : list (input QNum) :=
  [c86_in [(1, 0%Q); (2, 100%Q)] [1; 2]; c86_in [(3, 1%Q)] [3; 2]; c86_in [] []; c86_in [] []; c86_in [] []; c86_in [(4, 30%Q)] [4]; c86_in [(5, 31%Q)] [5; 5]].
Example C86_example_usable : usable 1 1 (ex_conf_reid 5).
Proof.
  constructor; cbn.
  - intros d o _ _. eexists. split; [reflexivity|discriminate].
  - vm_compute. discriminate.
  - intros f E. injection E as <-. split; [|vm_compute; discriminate]. intros o o' _ _. eexists. split; [reflexivity|discriminate].
  - exact round32_not_nan.
Qed.
Example C86_example_calls : well_formed_calls 1 1 c86_ins.
Proof.
  constructor.
  - cbn. repeat constructor; cbn; intuition discriminate.
  - intros x r d Hx Hd. assert (X : exists q, d = ex_det q).
    { cbn in Hx. repeat (destruct Hx as [<-|Hx]; [cbn in Hd; repeat (destruct Hd as [Hd|Hd]; [injection Hd as <- <-; eauto|]); destruct Hd|]). destruct Hx. }
    destruct X as [q ->]. repeat split; try (repeat constructor; fail). discriminate.
  - intros before x after r E Hr. do 7 (destruct before as [|? before]; [cbn in E; injection E as <- <-; cbn in *; tauto|]; cbn in E; injection E as <- E). destruct before; discriminate.
  - intros x T Hx. cbn in Hx. repeat (destruct Hx as [<-|Hx]; [discriminate|]). destruct Hx.
Qed.
Example C86_example : exists fs, play (ex_conf_reid 5) ex_start c86_ins = Some fs /\ map (fun f => f_out f) fs = [[]; [1; 2]; [1; 2]; [1; 2]; []; []; [1]].
Proof. exists (frames (ex_conf_reid 5) ex_start c86_ins). split; [apply frames_play; vm_compute; reflexivity|vm_compute; reflexivity]. Qed.

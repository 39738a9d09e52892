(** C87: detections go to the object that follows their thing. *)
From Coq Require Import ZArith QArith Bool List Arith.
From Verif Require Import Model.Num Model.Base Model.Matching Model.Filter Model.Float32 Model.Tracker.
From Verif Require Import Spec.MatchingSpec Spec.ExampleTracker Spec.ExampleVideo Spec.LabelSpec Spec.CallSpec Spec.GroundTruthSpec.
From Verif Require Import Proofs.NumLaws Proofs.Float32Proofs Proofs.Effect Proofs.GroundTruth.
Import ListNotations.
Local Open Scope nat_scope.

(** If the distances tell the things apart in every call, every call associates rightly. *)
Theorem C87_right_association {N : Num} (laws : NumLaws N) (FO : filter_ops N) (thing : Type) (who : nat -> thing) (c : tconf FO) f s fs :
  rnd_ok (tc_rnd c) -> tracker_state c s -> tc_distance c = ScalarDistance f -> age_blind f -> tc_reid_distance c = None ->
  video c s fs -> one_each thing who c s -> (forall fr, In fr fs -> unambiguous thing who c f fr) ->
  forall fr, In fr fs -> right_association thing who c fr.
Proof. exact (video_right laws thing who c f s fs). Qed.
Print Assumptions C87_right_association.

(** An object follows the same thing for the whole video. *)
Theorem C87_no_identity_switch {N : Num} (laws : NumLaws N) (FO : filter_ops N) (thing : Type) (who : nat -> thing) (c : tconf FO) f s fs i :
  rnd_ok (tc_rnd c) -> tracker_state c s -> tc_distance c = ScalarDistance f -> age_blind f -> tc_reid_distance c = None ->
  video c s fs -> one_each thing who c s -> (forall fr, In fr fs -> unambiguous thing who c f fr) -> known s i ->
  forall fr, In fr fs -> who (last_det (f_post fr) i) = who (last_det s i).
Proof. exact (video_constant laws thing who c f s fs i). Qed.
Print Assumptions C87_no_identity_switch.

(* ---- three things that move, appear, are missed and reappear; detection r shows thing r / 10 ---- *)
Definition c87_who (r : nat) : nat := r / 10.
Definition c87_in (l : list (nat * Q)) : input QNum := MkInput (map (fun x => (fst x, ex_det (snd x))) l) (map fst l) 1 None.
Definition c87_ins : list (input QNum) :=
  [c87_in [(10, 0%Q); (20, 100%Q)]; c87_in [(21, 103%Q); (11, 2%Q)]; c87_in [(12, 4%Q); (30, 50%Q)]; c87_in [(31, 49%Q); (22, 104%Q); (13, 6%Q)];
   c87_in [(23, 106%Q)]; c87_in []; c87_in [(14, 9%Q); (24, 108%Q)]; c87_in [(25, 110%Q); (32, 46%Q)]].
Definition c87_fs := frames ex_conf ex_start c87_ins.
Example C87_example_blind : age_blind ex_distance.
Proof. intros d d' o o' (_ & _ & _ & _ & E) Eo _ _. unfold ex_distance. cbn. rewrite E, Eo. reflexivity. Qed.
Example C87_example_video : video ex_conf ex_start c87_fs.
Proof. apply frames_video. vm_compute. reflexivity. Qed.
Example C87_example_start : one_each nat c87_who ex_conf ex_start.
Proof. intros i j [[] _]. Qed.
Example C87_example_unambiguous : forall fr, In fr c87_fs -> unambiguous nat c87_who ex_conf ex_distance fr.
Proof.
  assert (E : forallb (unambiguousb c87_who ex_conf ex_distance) c87_fs = true) by (vm_compute; reflexivity).
  rewrite forallb_forall in E. intros fr Hf. apply unambiguousb_ok, E, Hf.
Qed.
(** Thing 3 is gone for so long that it gets a second object. *)
Example C87_example : map (fun fr => map (fun i => (i, last_det (f_post fr) i)) (s_tracked (f_post fr))) c87_fs =
  [[(1, 10); (2, 20)]; [(1, 11); (2, 21)]; [(1, 12); (2, 21); (3, 30)]; [(1, 13); (2, 22); (3, 31)]; [(1, 13); (2, 23); (3, 31)];
   [(1, 13); (2, 23); (3, 31)]; [(1, 14); (2, 24); (3, 31)]; [(1, 14); (2, 25); (4, 32)]].
Proof. vm_compute. reflexivity. Qed.

(** Examples for C107: boxes. *)
From Coq Require Import ZArith QArith Bool List Arith Lia String.
From Verif Require Import Model.Num Model.Base Model.Strings Model.Matching Model.Filter Model.Float32 Model.Tracker Model.Metrics
  Spec.MatchingSpec Spec.ExampleTracker Spec.ExampleVideo Spec.ExamplePoints Spec.LabelSpec Spec.ProgressSpec.
From Verif Require Import Spec.CallSpec Spec.PointSpec Spec.MetricsSpec Spec.ResultSpec.
From Verif Require Import Proofs.NumLaws Proofs.Float32Proofs Proofs.Progress Proofs.ProgressBuiltin Proofs.FilterTracker Proofs.NearExamples Proofs.ResultProofs.
Import ListNotations.
Local Open Scope nat_scope.

Definition bx_det (x : Q) : detection QNum := new_detection [[(x : QNum); (0%Q : QNum)]; [(Qred (x + 10) : QNum); (20%Q : QNum)]] None [] LNone.
Definition bx_in (rs : list (nat * Q)) (dets : list nat) : input QNum := MkInput (map (fun x => (fst x, bx_det (snd x))) rs) dets 1%Z None.
Definition bx_ins : list (input QNum) :=
  [bx_in [(1, 0%Q); (2, 100%Q)] [1; 2]; bx_in [(3, 1%Q)] [3; 2]; bx_in [] []; bx_in [] []; bx_in [] []; bx_in [(4, 30%Q)] [4]; bx_in [(5, 31%Q)] [5; 5]].

Lemma bx_regular : regular exF nf_wf.
Proof. apply nf_regular. Qed.
Lemma bx_stop thr : (thr = 5%Q \/ thr = 50%Q) -> ~ dlt (round32 (dsucc (DFin (thr : QNum)))) (DFin (thr : QNum)).
Proof. intros [-> | ->]; vm_compute; discriminate. Qed.
Lemma bx_usable : usable 2 2 ex_conf.
Proof.
  constructor; cbn.
  - intros d o _ _. eexists. split; [reflexivity|discriminate].
  - vm_compute. discriminate.
  - discriminate.
  - exact round32_not_nan.
Qed.
Lemma bx_usable_reid : usable 2 2 (ex_conf_reid 5).
Proof.
  constructor; cbn.
  - intros d o _ _. eexists. split; [reflexivity|discriminate].
  - vm_compute. discriminate.
  - intros f E. injection E as <-. split; [|vm_compute; discriminate]. intros o o' _ _. eexists. split; [reflexivity|discriminate].
  - exact round32_not_nan.
Qed.
Lemma bx_calls : well_formed_calls 2 2 bx_ins.
Proof.
  constructor.
  - cbn. repeat constructor; cbn; intuition discriminate.
  - intros x r d Hx Hd. assert (X : exists q, d = bx_det q).
    { cbn in Hx. repeat (destruct Hx as [<-|Hx]; [cbn in Hd; repeat (destruct Hd as [Hd|Hd]; [injection Hd as <- <-; eauto|]); destruct Hd|]). destruct Hx. }
    destruct X as [q ->]. repeat split; try (repeat constructor; fail). discriminate.
  - intros before x after r E Hr. do 7 (destruct before as [|? before]; [cbn in E; injection E as <- <-; cbn in *; tauto|]; cbn in E; injection E as <- E). destruct before; discriminate.
  - intros x T Hx. cbn in Hx. repeat (destruct Hx as [<-|Hx]; [discriminate|]). destruct Hx.
Qed.
Lemma bx_session : tracked_session ("a/b"%string, (Z.of_nat 7, map predictions_of (frames ex_conf (new_tracker (FO := exF) (fun _ => ex_det 0) 0 ex_dummy) bx_ins))).
Proof.
  set (fs := frames ex_conf (new_tracker (FO := exF) (fun _ => ex_det 0) 0 ex_dummy) bx_ins).
  exists exF, nf_wf, 2, 2, ex_conf, bx_ins, (fun _ => ex_det 0), 0, ex_dummy, fs.
  split; [exact bx_regular|]. split; [lia|]. split; [lia|]. split; [exact bx_usable|]. split; [exact bx_calls|]. split; [discriminate|].
  split; [apply plays; vm_compute; reflexivity|]. split.
  - assert (E : Nat.eqb (List.length (List.concat (map (fun f => f_out f) fs))) 1 = false) by (vm_compute; reflexivity). apply Nat.eqb_neq in E. exact E.
  - assert (E : List.length fs = 7) by (vm_compute; reflexivity). rewrite E. reflexivity.
Qed.

Lemma ids_only (N : Num) (ps : list (list (prediction (N := N)))) boxes k xs : Forall2 (Forall2 shows_box) ps boxes -> nth_error boxes k = Some xs ->
  exists p, nth_error ps k = Some p /\ map (fun q => pr_id q) p = map Some (map b_id xs).
Proof.
  intros H E. destruct (forall2_nth _ _ _ _ _ H E) as (p & Hp & Hx). exists p. split; [exact Hp|]. clear -Hx. induction Hx as [|q x p xs [A _] H IH]; [reflexivity|]. cbn. rewrite A, IH. reflexivity.
Qed.
Lemma gap_at (N : Num) (ps : list (list (prediction (N := N)))) boxes : Forall2 (Forall2 shows_box) ps boxes ->
  map (map (fun q => pr_id q)) ps = [[]; [Some 2; Some 1]; [Some 2; Some 1]; [Some 2; Some 1]; []; []; [Some 2]] -> ~ without_gaps boxes.
Proof.
  intros H E G.
  assert (K : forall k l, nth_error (map (map (fun q => pr_id q)) ps) k = Some l -> exists xs, nth_error boxes k = Some xs /\ l = map Some (map b_id xs)).
  { intros k l Hk. rewrite nth_error_map in Hk. destruct (nth_error ps k) as [p|] eqn:Ep; [|discriminate]. injection Hk as <-. destruct (forall2_nth' _ _ _ _ _ H Ep) as (xs & Hx & _).
    destruct (ids_only _ _ _ _ _ H Hx) as (p' & Ep' & El). rewrite Ep in Ep'. injection Ep' as <-. eauto. }
  rewrite E in K. destruct (K 3 _ eq_refl) as (x3 & H3 & E3). destruct (K 4 _ eq_refl) as (x4 & H4 & E4). destruct (K 6 _ eq_refl) as (x6 & H6 & E6).
  assert (A : forall xs a, In (Some a) (map Some (map b_id xs)) -> has_id (N := N) a xs).
  { intros xs a X. apply in_map_iff in X as (b & Eb & Hb). injection Eb as ->. exact Hb. }
  assert (X : has_id 2 x4).
  { apply (G 2 3 4 6 x3 x4 x6); auto; try lia; apply A; [rewrite <- E3|rewrite <- E6]; left; reflexivity. }
  destruct x4; [exact X|discriminate].
Qed.
Theorem gaps_refuted : exists (FO : filter_ops QNum) wf (c : tconf FO) ins heap g dummy fs boxes,
  regular FO wf /\ usable 2 2 c /\ well_formed_calls 2 2 ins /\ play c (new_tracker heap g dummy) ins = Some fs /\
  Forall2 (Forall2 shows_box) (map predictions_of fs) boxes /\ ~ without_gaps boxes.
Proof.
  destruct (tracked_boxes QNum_laws exF _ 2 2 (ex_conf_reid 5) bx_ins (fun _ => ex_det 0) 0 ex_dummy bx_regular ltac:(lia) ltac:(lia) bx_usable_reid bx_calls) as (fs & boxes & P & _ & Hb & _).
  exists exF, nf_wf, (ex_conf_reid 5), bx_ins, (fun _ => ex_det 0), 0, ex_dummy, fs, boxes.
  split; [exact bx_regular|]. split; [exact bx_usable_reid|]. split; [exact bx_calls|]. split; [exact P|]. split; [exact Hb|].
  apply (gap_at _ _ _ Hb). assert (Ef : fs = frames (ex_conf_reid 5) (new_tracker (FO := exF) (fun _ => ex_det 0) 0 ex_dummy) bx_ins) by (unfold frames; rewrite P; reflexivity).
  rewrite Ef. vm_compute. reflexivity.
Qed.

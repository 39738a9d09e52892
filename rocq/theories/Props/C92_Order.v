(** C92: the order of the detections does not matter. *)
From Coq Require Import ZArith QArith String List Bool Arith Lia Permutation.
From Verif Require Import Model.Num Model.Base Model.Matching Model.Filter Model.Float32 Model.Tracker Model.Distances
  Spec.CallSpec Spec.ExampleTracker Spec.ExampleVideo Spec.LabelSpec Spec.OrderSpec
  Proofs.NumLaws Proofs.Effect Proofs.Float32Proofs Proofs.OrderMain Proofs.OrderDist.
Import ListNotations.
Local Open Scope nat_scope.

Section C92.
Context {N : Num} (laws : NumLaws N) {FO : filter_ops N}.

(** Two trackers with the same arguments, the second one created at any other time ([g'], [dummy']), are shown the
    same video; in each call the second is given the same detections in some other order.  No detection is
    given twice, and no two distances that matter are equal.  If the first tracker raises no error, the
    second does not either; in each call both return the same objects and hold the same objects, have counted the
    same number of objects, and write the same to the detections.  [R] is the same throughout: an object stays the
    same object. *)
Theorem C92_order (c : tconf FO) h g g' dummy dummy' ins ins' fa :
  rnd_ok (tc_rnd c) -> pairwise (tc_distance c) ->
  (forall f, tc_reid_distance c = Some f -> number_blind f) ->
  NoDup (flat_map in_dets ins) -> Forall2 reordered ins ins' ->
  play c (new_tracker h g dummy) ins = Some fa -> Forall (untied c) fa ->
  exists R fb, play c (new_tracker h g' dummy') ins' = Some fb /\
    one_to_one_rel R /\ Forall2 (same_calls R) fa fb.
Proof. exact (fun A B C => order_free laws c A B C h g g' dummy dummy' ins ins' fa). Qed.
End C92.
Print Assumptions C92_order.

(** The named distances of the library are of this kind, except those of scipy, which are not part of /repo (and of
    which "seuclidean" and "mahalanobis" do look at the whole table). *)
Theorem C92_distances (FO : filter_ops RNum) cdist name (d : distance FO) :
  get_distance_by_name cdist name = Ret d -> ~ In name scipy_functions -> pairwise d.
Proof. exact (by_name_pairwise cdist name d). Qed.
Print Assumptions C92_distances.

(** Where two distances are equal the order does decide: an object at 10 is offered detections at 9 and 11. *)
Definition ex92_det (r : nat) : detection QNum :=
  ex_det (nth r [0; 10; 10; 9; 11; 0; 1; 30; 2; 32; 3; 33; 34; 35; 20; 36; 22; 37]%Q 0%Q).
Definition ex92_give (made given : list nat) : input QNum := MkInput (map (fun r => (r, ex92_det r)) made) given 1 None.
Definition ex92_start : st exF := new_tracker (fun _ => ex_det 0) 0 ex_dummy.
Theorem C92_refuted : exists (c : tconf exF) h dummy ins ins' fa,
  rnd_ok (tc_rnd c) /\ pairwise (tc_distance c) /\ tc_reid_distance c = None /\
  NoDup (flat_map in_dets ins) /\ Forall2 reordered ins ins' /\
  play c (new_tracker h 0 dummy) ins = Some fa /\
  forall R fb, play c (new_tracker h 0 dummy) ins' = Some fb -> ~ Forall2 (same_calls R) fa fb.
Proof.
  set (v := [ex92_give [1] [1]; ex92_give [2] [2]; ex92_give [3; 4] [3; 4]]). set (v' := [ex92_give [1] [1]; ex92_give [2] [2]; ex92_give [3; 4] [4; 3]]).
  exists ex_conf, (fun _ => ex_det 0), ex_dummy, v, v', (frames ex_conf ex92_start v).
  split; [exact round32_not_nan|]. split; [intros [d|o'] o; reflexivity|]. split; [reflexivity|].
  split; [cbn; repeat constructor; cbn; intuition discriminate|].
  split; [repeat constructor; cbn; auto using perm_swap|].
  split; [apply frames_play; vm_compute; reflexivity|].
  intros R fb E F. assert (X : fb = frames ex_conf ex92_start v').
  { unfold frames. change ex92_start with (new_tracker (FO:=exF) (fun _ => ex_det 0) 0 ex_dummy). rewrite E. reflexivity. }
  clear E. subst fb.
  assert (Y : exists p q, map (fun f => map (fun i => d_points (s_heap (f_post f) (o_last_det (s_store (f_post f) i)))) (f_out f)) (frames ex_conf ex92_start v) = p ++ [[ [[ (9%Q : QNum) ]] ]] /\
     map (fun f => map (fun i => d_points (s_heap (f_post f) (o_last_det (s_store (f_post f) i)))) (f_out f)) (frames ex_conf ex92_start v') = q ++ [[ [[ (11%Q : QNum) ]] ]]).
  { eexists [_; _], [_; _]. split; vm_compute; reflexivity. }
  destruct Y as (p & q & Y1 & Y2).
  assert (Z : forall fa fb p q (a b : points QNum), Forall2 (same_calls R) fa fb ->
     map (fun f : CallSpec.frame exF => map (fun i => d_points (s_heap (f_post f) (o_last_det (s_store (f_post f) i)))) (f_out f)) fa = p ++ [[a]] ->
     map (fun f : CallSpec.frame exF => map (fun i => d_points (s_heap (f_post f) (o_last_det (s_store (f_post f) i)))) (f_out f)) fb = q ++ [[b]] -> a = b).
  { clear. intros fa fb p q a b F. revert p q. induction F as [|f f' fa fb Hf F IH]; intros p q E1 E2; [destruct p; discriminate|].
    destruct F as [|f2 f2' fa fb Hf2 F].
    - destruct p as [|? [|? ?]]; [|discriminate E1|discriminate E1]. destruct q as [|? [|? ?]]; [|discriminate E2|discriminate E2].
      injection E1 as E1. injection E2 as E2. destruct Hf as ((js & P & M) & _).
      destruct (f_out f) as [|i [|? ?]]; try discriminate. destruct (f_out f') as [|j [|? ?]]; try discriminate.
      apply Permutation_length_1_inv in P. subst js. inversion M as [|? ? ? ? [_ S] _]; subst. injection E1 as <-. injection E2 as <-.
      exact (f_equal (fun v => d_points (v_last v)) S).
    - destruct p as [|x p]; [discriminate E1|]. destruct q as [|y q]; [discriminate E2|]. injection E1 as _ E1. injection E2 as _ E2. exact (IH p q E1 E2). }
  pose proof (Z _ _ _ _ _ _ F Y1 Y2). discriminate.
Qed.
Print Assumptions C92_refuted.

(** A case for the positive theorem: a thing near 0 and a thing near 30 and, in the end, another one at 60, with
    re-identification; the thing near 0 is not seen for three calls and is found again. *)
Definition ex92_video : list (input QNum) :=
  [ex92_give [5; 7] [5; 7]; ex92_give [6; 9] [6; 9]; ex92_give [11] [11]; ex92_give [12] [12]; ex92_give [13] [13];
   ex92_give [14; 15] [14; 15]; ex92_give [16; 17] [16; 17]].
Definition ex92_video' : list (input QNum) :=
  [ex92_give [5; 7] [7; 5]; ex92_give [6; 9] [9; 6]; ex92_give [11] [11]; ex92_give [12] [12]; ex92_give [13] [13];
   ex92_give [14; 15] [15; 14]; ex92_give [16; 17] [16; 17]].
Example ex92_hypotheses : pairwise (tc_distance (ex_conf_reid 5)) /\ NoDup (flat_map in_dets ex92_video) /\
  Forall2 reordered ex92_video ex92_video' /\ Forall (untied (ex_conf_reid 5)) (frames (ex_conf_reid 5) ex92_start ex92_video).
Proof.
  split; [intros [d|o'] o; reflexivity|]. split; [cbn; repeat constructor; cbn; intuition discriminate|].
  split; [repeat constructor; cbn; auto using perm_swap|]. apply untiedb_ok. vm_compute. reflexivity.
Qed.
(** (returned, their last detections, held) *)
Definition ex92_seen (v : list (input QNum)) :=
  map (fun f => (f_out f, map (fun i => o_last_det (s_store (f_post f) i)) (f_out f), s_tracked (f_post f))) (frames (ex_conf_reid 5) ex92_start v).
Example ex92_one : ex92_seen ex92_video =
  [([], [], [1; 2]); ([1; 2], [6; 9], [1; 2]); ([1; 2], [6; 11], [1; 2]); ([1; 2], [6; 12], [1; 2]); ([2], [13], [1; 2]);
   ([2], [15], [1; 2; 3]); ([1; 2], [16; 17], [1; 2])].
Proof. vm_compute. reflexivity. Qed.
Example ex92_other : ex92_seen ex92_video' =
  [([], [], [1; 2]); ([1; 2], [9; 6], [1; 2]); ([1; 2], [11; 6], [1; 2]); ([1; 2], [12; 6], [1; 2]); ([1], [13], [1; 2]);
   ([1], [15], [1; 2; 3]); ([1; 2], [17; 16], [1; 2])].
Proof. vm_compute. reflexivity. Qed.

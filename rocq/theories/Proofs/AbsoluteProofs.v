(** Absolute coordinates of detections after a call of [update]. *)
From Coq Require Import ZArith QArith Bool Arith List Lia.
From Verif Require Import Model.Num Model.Base Model.Matching Model.Filter Model.Tracker Model.CameraMotion
  Spec.MatchingSpec Proofs.Identity Proofs.Effect Proofs.CallEffect Proofs.CallProps Spec.CallSpec
  Spec.ExampleTracker Spec.ExampleVideo.
Import ListNotations.
Local Open Scope nat_scope.

Lemma iter_swap {A} n (f : A -> A) x : Nat.iter n f (f x) = f (Nat.iter n f x).
Proof. induction n as [|n IH]; [reflexivity|]. exact (f_equal f IH). Qed.

Section A.
Context {N : Num} {FO : filter_ops N}.
Lemma transformed_heap (T : coord_transformation N) dets r : forall s : st FO,
  d_absolute_points (s_heap (update_dets_ct T dets s) r)
  = Nat.iter (count_occ Nat.eq_dec dets r) (ct_rel_to_abs T) (d_absolute_points (s_heap s r)) /\
  d_points (s_heap (update_dets_ct T dets s) r) = d_points (s_heap s r).
Proof.
  induction dets as [|q dets IH]; intros s; [split; reflexivity|]. cbn [update_dets_ct count_occ].
  destruct (IH (mod_det q (det_update_ct T) s)) as [E1 E2]. rewrite E1, E2.
  unfold mod_det, s_set_heap, upd. cbn [s_heap]. destruct (Nat.eq_dec q r) as [->|Hne].
  - rewrite Nat.eqb_refl. split; [exact (iter_swap _ _ _)|reflexivity].
  - destruct (Nat.eqb_spec r q); [congruence|]. split; reflexivity.
Qed.
Lemma absolute_points_after (L : NumLaws N) (c : tconf FO) dets p T (s s' : st FO) out r :
  rnd_ok (tc_rnd c) -> tracker_state c s -> update c (Some dets) p (Some T) s = (s', Ret out) ->
  d_absolute_points (s_heap s' r) = Nat.iter (count_occ Nat.eq_dec dets r) (ct_rel_to_abs T) (d_absolute_points (s_heap s r)) /\
  d_points (s_heap s' r) = d_points (s_heap s r).
Proof.
  intros Hr Hs E. destruct (tracker_state_good c s Hs) as [HT _].
  destruct (update_summary L c _ _ _ _ _ _ Hr HT E) as (H1 & H2 & G & news & S & _).
  pose proof (su_heap _ _ _ _ _ _ _ _ _ _ S r) as (A1 & _ & _ & _ & A5). cbn [dets_of ct_heap] in A1, A5.
  destruct (transformed_heap T dets r s) as [B1 B2]. split; congruence.
Qed.
Lemma absolute_points_once (L : NumLaws N) (c : tconf FO) dets p T (s s' : st FO) out r :
  rnd_ok (tc_rnd c) -> tracker_state c s -> update c (Some dets) p (Some T) s = (s', Ret out) ->
  d_absolute_points (s_heap s r) = d_points (s_heap s r) -> NoDup dets -> In r dets ->
  d_absolute_points (s_heap s' r) = ct_rel_to_abs T (d_points (s_heap s' r)).
Proof.
  intros Hr Hs E Ha Hd Hi. destruct (absolute_points_after L c dets p T s s' out r Hr Hs E) as [-> ->].
  rewrite Ha. replace (count_occ Nat.eq_dec dets r) with 1; [reflexivity|].
  apply (count_occ_In Nat.eq_dec) in Hi. pose proof (proj1 (NoDup_count_occ Nat.eq_dec dets) Hd r). lia.
Qed.
Lemma no_transformation (L : NumLaws N) (c : tconf FO) dets p (s s' : st FO) out r :
  rnd_ok (tc_rnd c) -> tracker_state c s -> update c dets p None s = (s', Ret out) ->
  d_absolute_points (s_heap s' r) = d_absolute_points (s_heap s r) /\ d_points (s_heap s' r) = d_points (s_heap s r).
Proof.
  intros Hr Hs E. destruct (tracker_state_good c s Hs) as [HT _].
  destruct (update_summary L c _ _ _ _ _ _ Hr HT E) as (H1 & H2 & G & news & S & _).
  pose proof (su_heap _ _ _ _ _ _ _ _ _ _ S r) as (A1 & _ & _ & _ & A5). cbn [ct_heap] in A1, A5. split; congruence.
Qed.
End A.

(** The same detection in two calls with the same camera position. *)
Definition ex_camera : coord_transformation QNum := @translation QNum [10%Q].
Definition ex_reuse : list (input QNum) := [MkInput [(1, ex_det 5)] [1] 1%Z (Some ex_camera); MkInput [] [1] 1%Z (Some ex_camera)].
Definition ex_twice : list (input QNum) := [MkInput [(1, ex_det 5)] [1; 1] 1%Z (Some ex_camera)].
Definition ex_noframe : frame exF := MkFrame [] 0%Z None ex_start ex_start [].
Lemma reuse_wrong ins k : (match play ex_conf ex_start ins with Some _ => true | None => false end) = true ->
  k < List.length (frames ex_conf ex_start ins) ->
  f_ct (nth k (frames ex_conf ex_start ins) ex_noframe) = Some ex_camera ->
  inb 1 (f_dets (nth k (frames ex_conf ex_start ins) ex_noframe)) = true ->
  (let f := nth k (frames ex_conf ex_start ins) ex_noframe in
   @neqb QNum (ex_point (d_absolute_points (s_heap (f_post f) 1))) (ex_point (ct_rel_to_abs ex_camera (d_points (s_heap (f_post f) 1))))) = false ->
  let f := nth k (frames ex_conf ex_start ins) ex_noframe in
  video ex_conf ex_start (frames ex_conf ex_start ins) /\ In f (frames ex_conf ex_start ins) /\ f_ct f = Some ex_camera /\ In 1 (f_dets f) /\
    d_absolute_points (s_heap (f_post f) 1) <> ct_rel_to_abs ex_camera (d_points (s_heap (f_post f) 1)).
Proof.
  intros H1 H5 H2 H3 H4. 
  split; [apply frames_video, H1|]. split; [apply nth_In, H5|]. split; [exact H2|]. split; [apply inb_In, H3|].
  intros E. cbv zeta in H4. rewrite E in H4. cbn [neqb QNum] in H4. rewrite Qeq_bool_refl in H4. discriminate.
Qed.
Lemma reused_detection : exists (N : Num) (FO : filter_ops N) (c : tconf FO) s fs f T r,
  tracker_state c s /\ video c s fs /\ In f fs /\ f_ct f = Some T /\ In r (f_dets f) /\ NoDup (f_dets f) /\
  d_absolute_points (s_heap (f_post f) r) <> ct_rel_to_abs T (d_points (s_heap (f_post f) r)).
Proof.
  destruct (reuse_wrong ex_reuse 1) as (A & B & C & D & E); try (vm_compute; reflexivity); try (vm_compute; lia).
  exists QNum, exF, ex_conf, ex_start, (frames ex_conf ex_start ex_reuse), (nth 1 (frames ex_conf ex_start ex_reuse) ex_noframe), ex_camera, 1.
  split; [constructor|]. split; [exact A|]. split; [exact B|]. split; [exact C|]. split; [exact D|]. split; [|exact E].
  assert (X : f_dets (nth 1 (frames ex_conf ex_start ex_reuse) ex_noframe) = [1]) by (vm_compute; reflexivity). rewrite X.
  repeat constructor. intros [].
Qed.
Lemma repeated_detection : exists (N : Num) (FO : filter_ops N) (c : tconf FO) s fs f T r,
  tracker_state c s /\ video c s fs /\ In f fs /\ f_ct f = Some T /\ In r (f_dets f) /\
  d_absolute_points (s_heap (f_pre f) r) = d_points (s_heap (f_pre f) r) /\
  d_absolute_points (s_heap (f_post f) r) <> ct_rel_to_abs T (d_points (s_heap (f_post f) r)).
Proof.
  destruct (reuse_wrong ex_twice 0) as (A & B & C & D & E); try (vm_compute; reflexivity); try (vm_compute; lia).
  exists QNum, exF, ex_conf, ex_start, (frames ex_conf ex_start ex_twice), (nth 0 (frames ex_conf ex_start ex_twice) ex_noframe), ex_camera, 1.
  split; [constructor|]. split; [exact A|]. split; [exact B|]. split; [exact C|]. split; [exact D|]. split; [|exact E].
  vm_compute. reflexivity.
Qed.
Lemma absolute_case : exists s' out,
  let s := meanwhile ex_s3 (put (s_heap ex_s3) [(4, ex_det 13)]) (s_gcount ex_s3) in
  tracker_state ex_conf s /\ update ex_conf (Some [4]) 1%Z (Some ex_camera) s = (s', Ret out) /\
  d_absolute_points (s_heap s 4) = d_points (s_heap s 4) /\ ex_point (d_absolute_points (s_heap s' 4)) = 3%Q.
Proof.
  set (s := meanwhile ex_s3 (put (s_heap ex_s3) [(4, ex_det 13)]) (s_gcount ex_s3)).
  exists (fst (update ex_conf (Some [4]) 1%Z (Some ex_camera) s)).
  exists (match snd (update ex_conf (Some [4]) 1%Z (Some ex_camera) s) with Ret o => o | Raise _ => [] end).
  cbv zeta. split; [unfold s; constructor; [exact ex_s3_state|apply Nat.le_refl]|]. split.
  - assert (X : (match snd (update ex_conf (Some [4]) 1%Z (Some ex_camera) s) with Ret _ => true | Raise _ => false end) = true) by (vm_compute; reflexivity).
    destruct (update ex_conf (Some [4]) 1%Z (Some ex_camera) s) as [s' [o|e]]; [reflexivity|discriminate].
  - split; vm_compute; reflexivity.
Qed.

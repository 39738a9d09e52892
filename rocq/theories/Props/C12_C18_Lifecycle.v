(** C12-C18: the life of tracked objects. *)
From Coq Require Import ZArith QArith Bool List Arith Lia Sorting.Sorted.
From Verif Require Import Model.Num Model.Base Model.Matching Model.Filter Model.Float32 Model.Tracker
  Spec.MatchingSpec Spec.ExampleTracker Spec.ExampleVideo
  Proofs.NumLaws Proofs.Float32Proofs Proofs.Effect Proofs.CallTheorems Proofs.CallTheorems2 Proofs.CallTheorems3 Proofs.CallTheorems4.
From Verif Require Import Spec.CallSpec.
From Verif Require Import Spec.CountSpec Proofs.CountProofs.
From Verif Require Import Spec.CounterSpec Proofs.CounterLaw.
Import ListNotations.
Local Open Scope nat_scope.

(** C12, second half, without re-identification: total_object_count is the number of different objects
    returned so far by update(). *)
Theorem C12_total_count_returned_partial (N : Num) (laws : NumLaws N) (FO : filter_ops N) (c : tconf FO) (s : st FO) fs f :
  rnd_ok (tc_rnd c) -> tracker_state c s -> s_icount s = 0 ->
  (0 <= tc_delay c)%Z -> tc_reid_distance c = None -> video c s (fs ++ [f]) ->
  total_object_count (f_post f) = length (nodup Nat.eq_dec (concat (map f_out (fs ++ [f])))).
Proof. exact (total_count_returned laws c s fs f). Qed.
Print Assumptions C12_total_count_returned_partial.

(** C12, second half, is false with re-identification: an object that is initialized and merged in the same
    call uses up an id although it is never returned. *)
Definition ex12 : list (frame exF) := frames (ex_conf_reid 2) ex_start (ex_warm ++ [at_ 4 30; at_ 5 31]).
Theorem C12_total_count_reid_refuted : exists (c : tconf exF) (s : st exF) fs f,
  tracker_state c s /\ s_icount s = 0 /\ video c s (fs ++ [f]) /\
  total_object_count (f_post f) = 2 /\ nodup Nat.eq_dec (concat (map f_out (fs ++ [f]))) = [1].
Proof.
  exists (ex_conf_reid 2), ex_start, (firstn 4 ex12), (nth 4 ex12 (hd (MkFrame [] 0 None ex_start ex_start []) ex12)).
  split; [constructor|]. split; [reflexivity|]. split; [|split; vm_compute; reflexivity].
  rewrite (snoc_split ex12 _ 4) by (vm_compute; reflexivity). apply frames_video. vm_compute. reflexivity.
Qed.
Print Assumptions C12_total_count_reid_refuted.

(** The exact law, with or without re-identification: total_object_count is the number of different objects returned
    plus that of the objects that were initialized and absorbed by another one in the same call, which are never
    returned. *)
Theorem C12_total_count_law (N : Num) (laws : NumLaws N) (FO : filter_ops N) (c : tconf FO) (s : st FO) fs f :
  rnd_ok (tc_rnd c) -> tracker_state c s -> s_icount s = 0 -> (0 <= tc_delay c)%Z -> video c s (fs ++ [f]) ->
  exists L, NoDup L /\ (forall i, In i L <-> exists g, In g (fs ++ [f]) /\ absorbed g i) /\
    (forall i, In i L -> ~ In i (returned (fs ++ [f]))) /\
    total_object_count (f_post f) = length (returned (fs ++ [f])) + length L.
Proof. exact (total_count_exact laws c s fs f). Qed.
Print Assumptions C12_total_count_law.
(** In the video above, object 2 is absorbed in the fifth call. *)
Example ex12_absorbed : exists f, nth_error ex12 4 = Some f /\ absorbed f 2 /\ returned ex12 = [1].
Proof.
  exists (nth 4 ex12 (hd (MkFrame [] 0 None ex_start ex_start []) ex12)). split; [apply nth_error_nth'; vm_compute; auto|].
  split; [|vm_compute; reflexivity].
  split; [vm_compute; auto|]. split; [vm_compute; reflexivity|]. split; [vm_compute; reflexivity|].
  split; [vm_compute; intuition congruence|].
  exists 1. split; [discriminate|]. split; [vm_compute; auto|]. split; [vm_compute; auto|].
  split; [vm_compute; reflexivity|]. split; [vm_compute; auto|]. vm_compute; reflexivity.
Qed.

(** C13: update() returns exactly the active objects. *)
Theorem C13_update_returns_active (N : Num) (laws : NumLaws N) (FO : filter_ops N) (c : tconf FO) dets p ct (s s' : st FO) out :
  rnd_ok (tc_rnd c) -> tracker_state c s -> update c dets p ct s = (s', Ret out) ->
  (forall i, In i out <-> tracked s' i /\ o_initializing (s_store s' i) = false /\ (0 <= hit_counter s' i)%Z) /\
  NoDup out /\ StronglySorted lt out /\ get_active_objects s' = out /\ current_object_count s' = length out.
Proof. exact (update_returns_active laws c dets p ct s s' out). Qed.
Print Assumptions C13_update_returns_active.

(** C14: hit counter law.  Either the object was matched, or missed, or (only with a reid distance) another
    object that disappeared was merged into it. *)
Theorem C14_hit_counter_law (N : Num) (laws : NumLaws N) (FO : filter_ops N) (c : tconf FO) dets p ct (s s' : st FO) out i :
  rnd_ok (tc_rnd c) -> tracker_state c s ->
  update c (Some dets) p ct s = (s', Ret out) -> tracked s i -> tracked s' i ->
  o_age (s_store s' i) = (o_age (s_store s i) + 1)%Z /\
  ((In (last_det s' i) dets /\ hit_counter s' i = Z.min (hit_counter s i - 1 + 2 * p) (tc_hit_counter_max c))
   \/ (last_det s' i = last_det s i /\ hit_counter s' i = hit_counter s i - 1)%Z
   \/ (tc_reid_distance c <> None /\ hit_counter s' i = (2 * oc_initial_period (o_conf (s_store s i)))%Z /\
       exists j, tracked s j /\ ~ tracked s' j /\ last_det s' i = last_det s' j /\ In (last_det s' j) dets)) /\
  (~ In (last_det s' i) dets -> hit_counter s' i = hit_counter s i - 1)%Z /\
  (tc_reid_distance c = None -> ~ In (last_det s i) dets -> In (last_det s' i) dets ->
     hit_counter s' i = Z.min (hit_counter s i - 1 + 2 * p) (tc_hit_counter_max c)).
Proof. exact (hit_counter_law laws c dets p ct s s' out i). Qed.
Print Assumptions C14_hit_counter_law.

(** C15, what holds: the hit counter is at most hit_counter_max or the period of the call that created the
    object (twice that after a re-identification). *)
Theorem C15_hit_counter_bounded_partial (N : Num) (FO : filter_ops N) (c : tconf FO) (s : st FO) i :
  tracker_state c s -> known s i ->
  let p0 := oc_initial_period (o_conf (s_store s i)) in
  (hit_counter s i <= Z.max (tc_hit_counter_max c) (Z.max p0 (2 * p0)))%Z /\
  (tc_reid_distance c = None -> hit_counter s i <= Z.max (tc_hit_counter_max c) p0)%Z.
Proof. exact (hit_counter_bounded c s i). Qed.
Print Assumptions C15_hit_counter_bounded_partial.

(** C15 as stated is false: an object created by update(dets, period=10) starts with hit_counter 10 > 3. *)
Theorem C15_hit_counter_max_refuted : exists (s : st exF) i,
  tracker_state ex_conf s /\ In i (get_active_objects s) /\ tc_hit_counter_max ex_conf = 3%Z /\ hit_counter s i = 10%Z.
Proof.
  exists (fst (update ex_conf (Some [1]) 10 None ex_start)), 1. split; [apply ts_update; constructor|].
  split; [apply inb_In|split]; vm_compute; reflexivity.
Qed.
Print Assumptions C15_hit_counter_max_refuted.

(** C15, exactly, without re-identification: an object starts with the period of the call that created it, ... *)
Theorem C15_created (N : Num) (laws : NumLaws N) (FO : filter_ops N) (c : tconf FO) dets p ct (s s' : st FO) out i :
  rnd_ok (tc_rnd c) -> tracker_state c s -> update c (Some dets) p ct s = (s', Ret out) ->
  known s' i -> ~ known s i -> hit_counter s' i = p.
Proof. exact (created_counter laws c dets p ct s s' out i). Qed.
Print Assumptions C15_created.

(** ... from then on its counter follows the calls, ... *)
Theorem C15_hit_counter_law (N : Num) (laws : NumLaws N) (FO : filter_ops N) (c : tconf FO) (s : st FO) fs i :
  rnd_ok (tc_rnd c) -> tracker_state c s -> tc_reid_distance c = None -> video c s fs ->
  tracked s i -> (forall f, In f fs -> fresh f i) ->
  forall m g, nth_error fs m = Some g -> tracked (f_post g) i ->
  hit_counter (f_post g) i = counter_after (tc_hit_counter_max c) i (hit_counter s i) (firstn (S m) fs).
Proof. exact (counter_law laws c s fs i). Qed.
Print Assumptions C15_hit_counter_law.

(** ... and it is at most hit_counter_max from its first match on. *)
Theorem C15_capped_after_match (N : Num) (laws : NumLaws N) (FO : filter_ops N) (c : tconf FO) (s : st FO) fs i :
  rnd_ok (tc_rnd c) -> tracker_state c s -> tc_reid_distance c = None -> video c s fs ->
  tracked s i -> (forall f, In f fs -> fresh f i) ->
  forall k f m g, nth_error fs k = Some f -> seen f i -> k <= m -> nth_error fs m = Some g -> tracked (f_post g) i ->
  (hit_counter (f_post g) i <= tc_hit_counter_max c)%Z.
Proof. exact (capped_after_match laws c s fs i). Qed.
Print Assumptions C15_capped_after_match.

(** C15 is true, with and without re-identification, while the periods are small: at most hit_counter_max, and at most
    half of it with re-identification. *)
Theorem C15_small_periods (N : Num) (laws : NumLaws N) (FO : filter_ops N) (c : tconf FO) (s : st FO) fs :
  rnd_ok (tc_rnd c) -> tracker_state c s -> video c s fs ->
  let small q := (q <= tc_hit_counter_max c /\ (tc_reid_distance c <> None -> 2 * q <= tc_hit_counter_max c))%Z in
  (forall i, tracked s i -> small (oc_initial_period (o_conf (s_store s i)))) -> (forall f, In f fs -> small (f_period f)) ->
  forall f, In f fs -> forall i, tracked (f_post f) i -> (hit_counter (f_post f) i <= tc_hit_counter_max c)%Z.
Proof. exact (small_periods laws c s fs). Qed.
Print Assumptions C15_small_periods.

(** C16: an active object with hit_counter h that is not matched any more is returned by exactly the next h
    calls.  (With reid_hit_counter_max set, as long as its countdown has not started.) *)
Theorem C16_lost_object_returned (N : Num) (laws : NumLaws N) (FO : filter_ops N) (c : tconf FO) (s : st FO) fs i h :
  rnd_ok (tc_rnd c) -> tracker_state c s ->
  In i (get_active_objects s) -> hit_counter s i = Z.of_nat h ->
  (tc_reid_max c = None \/ o_reid (s_store s i) = None) ->
  video c s fs -> (forall f, In f fs -> ~ seen f i) ->
  forall n f, nth_error fs n = Some f -> (In i (f_out f) <-> n < h).
Proof. exact (lost_object_returned laws c s fs i h). Qed.
Print Assumptions C16_lost_object_returned.

(** C17: initialization delay.  Call number 0 creates object i; it is matched in all later calls. *)
Theorem C17_initialization_delay_exact (N : Num) (laws : NumLaws N) (FO : filter_ops N) (c : tconf FO) (s : st FO) f0 fs i :
  rnd_ok (tc_rnd c) -> tracker_state c s -> video c s (f0 :: fs) ->
  (0 <= tc_delay c < tc_hit_counter_max c)%Z ->
  s_icount (f_pre f0) < i <= s_icount (f_post f0) -> f_period f0 = 1%Z ->
  (forall f, In f fs -> f_period f = 1%Z /\ seen f i /\ fresh f i) ->
  (tc_reid_distance c = None \/ forall f, In f fs -> tracked (f_post f) i) ->
  forall n f, nth_error (f0 :: fs) n = Some f -> (In i (f_out f) <-> Z.to_nat (tc_delay c) <= n).
Proof. exact (initialization_delay_exact laws c s f0 fs i). Qed.
Print Assumptions C17_initialization_delay_exact.

(** C18: an initialized object matched in every call is returned by every call. *)
Theorem C18_matched_always_returned (N : Num) (laws : NumLaws N) (FO : filter_ops N) (c : tconf FO) (s : st FO) fs i :
  rnd_ok (tc_rnd c) -> tracker_state c s -> video c s fs -> tracked s i ->
  o_initializing (s_store s i) = false -> (0 <= tc_hit_counter_max c)%Z -> (0 <= oc_initial_period (o_conf (s_store s i)))%Z ->
  (forall f, In f fs -> (1 <= f_period f)%Z /\ seen f i /\ fresh f i) ->
  forall f, In f fs -> In i (f_out f).
Proof. exact (matched_always_returned laws c s fs i). Qed.
Print Assumptions C18_matched_always_returned.

(** C18: without reid_hit_counter_max, an object that was returned is still tracked after the next call,
    whatever the detections are. *)
Theorem C18_returned_takes_part (N : Num) (laws : NumLaws N) (FO : filter_ops N) (c : tconf FO) (s : st FO) f fs i :
  rnd_ok (tc_rnd c) -> tracker_state c s -> video c s (f :: fs) ->
  In i (get_active_objects s) -> tc_reid_max c = None -> tracked (f_post f) i.
Proof. exact (returned_takes_part laws c s f fs i). Qed.
Print Assumptions C18_returned_takes_part.

(** The previous theorem is false with reid_hit_counter_max: object 1 was matched and returned by the last
    three calls and has the maximal hit counter, a detection is exactly where the object is, and still
    the call drops the object and creates a new one. *)
Definition ex18 : list (frame exF) := frames (ex_conf_reid 1) ex_start
  (ex_warm ++ [nothing; nothing; nothing; at_ 4 2; at_ 5 2; at_ 6 2; at_ 7 2]).
Definition ex18_init : list (frame exF) := firstn 9 ex18.
Definition ex18_last : frame exF := nth 9 ex18 (hd (MkFrame [] 0 None ex_start ex_start []) ex18).
Lemma ex18_video : video (ex_conf_reid 1) ex_start (ex18_init ++ [ex18_last]).
Proof.
  unfold ex18_init, ex18_last. rewrite (snoc_split ex18 _ 9) by (vm_compute; reflexivity). apply frames_video. vm_compute. reflexivity.
Qed.
Lemma ex18_seen : forall g, In g (skipn 6 ex18_init) -> seen g 1 /\ In 1 (f_out g).
Proof.
  assert (H : forallb (fun g => seenb 1 g && inb 1 (f_out g)) (skipn 6 ex18_init) = true) by (vm_compute; reflexivity).
  intros g Hg. destruct (andb_prop _ _ (proj1 (forallb_forall _ _) H g Hg)) as [A B].
  split; [exact (proj1 (inb_In _ _) A)|exact (proj1 (inb_In _ _) B)].
Qed.
Theorem C18_reid_drops_matched_object_refuted : exists fs f,
  video (ex_conf_reid 1) ex_start (fs ++ [f]) /\
  (forall g, In g (skipn 6 fs) -> seen g 1 /\ In 1 (f_out g)) /\ length (skipn 6 fs) = 3 /\
  hit_counter (f_pre f) 1 = 3%Z /\ [estimate (s_store (f_pre f) 1)] = map (@d_points QNum) (map (s_heap (f_pre f)) (f_dets f)) /\
  ~ tracked (f_post f) 1 /\ f_out f = [] /\ s_icount (f_post f) = 2.
Proof.
  exists ex18_init, ex18_last. split; [exact ex18_video|]. split; [exact ex18_seen|].
  split; [vm_compute; reflexivity|]. split; [vm_compute; reflexivity|]. split; [vm_compute; reflexivity|].
  split; [by_in|]. split; vm_compute; reflexivity.
Qed.
Print Assumptions C18_reid_drops_matched_object_refuted.

(* ---- concrete cases ---- *)
Example ex_round_ok : rnd_ok (tc_rnd ex_conf).
Proof. exact round32_not_nan. Qed.

(** C12, C14, C17, C18: a video with one object matched in every call. *)
Definition ex17 : list (frame exF) := frames ex_conf ex_start (ex_warm ++ [at_ 4 3; at_ 5 4]).
Example ex17_video : video ex_conf ex_start ex17.
Proof. apply frames_video. vm_compute. reflexivity. Qed.
Example ex17_hyps : exists f0 fs, ex17 = f0 :: fs /\ s_icount (f_pre f0) < 1 <= s_icount (f_post f0) /\ f_period f0 = 1%Z /\
  (forall f, In f fs -> f_period f = 1%Z /\ seen f 1 /\ fresh f 1).
Proof.
  exists (hd (MkFrame [] 0 None ex_start ex_start []) ex17), (tl ex17). split; [exact (cons_split ex17 _ 4 (eq_refl 5))|].
  split; [vm_compute; split; repeat constructor|]. split; [vm_compute; reflexivity|].
  assert (H : forallb (fun f => Z.eqb (f_period f) 1 && seenb 1 f && freshb 1 f) (tl ex17) = true) by (vm_compute; reflexivity).
  intros f Hf. destruct (all_seen_fresh 1 (fun f => Z.eqb (f_period f) 1) (tl ex17) H f Hf) as [A B].
  exact (conj (proj1 (Z.eqb_eq _ _) A) B).
Qed.
Example ex17_outcome :
  map (fun f => (f_out f, hit_counter (f_post f) 1)) ex17 = [([], 1%Z); ([1], 2%Z); ([1], 3%Z); ([1], 3%Z); ([1], 3%Z)]
  /\ total_object_count (f_post (last ex17 (hd (MkFrame [] 0 None ex_start ex_start []) ex17))) = 1.
Proof. vm_compute. auto. Qed.

(** C16: after three matches the object has hit counter 3 and survives three empty calls. *)
Definition ex16 : list (frame exF) := frames ex_conf ex_s3 [nothing; at_ 9 50; nothing; nothing; nothing].
Example ex16_hyps : tracker_state ex_conf ex_s3 /\ In 1 (get_active_objects ex_s3) /\ hit_counter ex_s3 1 = Z.of_nat 3 /\
  video ex_conf ex_s3 ex16 /\ (forall f, In f ex16 -> ~ seen f 1).
Proof.
  split; [exact ex_s3_state|]. split; [by_in|]. split; [vm_compute; reflexivity|].
  split; [apply frames_video; vm_compute; reflexivity|]. apply none_seen. vm_compute. reflexivity.
Qed.
Example ex16_outcome : map (fun f => inb 1 (f_out f)) ex16 = [true; true; true; false; false].
Proof. vm_compute. reflexivity. Qed.

(** C15: created with period 10, missed, matched, missed; hit_counter_max is 3. *)
Definition ex15_s : st exF := last_state ex_start (frames ex_conf ex_start [MkInput [(1, ex_det 0)] [1] 10 None]).
Definition ex15 : list (frame exF) := frames ex_conf ex15_s [nothing; at_ 2 1; nothing].
Example ex15_hyps : tracker_state ex_conf ex15_s /\ video ex_conf ex15_s ex15 /\ tc_reid_distance ex_conf = None /\ tracked ex15_s 1 /\
  (forall f, In f ex15 -> fresh f 1) /\ map (fun f => seenb 1 f) ex15 = [false; true; false].
Proof.
  split; [apply last_state_ok; [constructor|]; apply frames_video; vm_compute; reflexivity|].
  split; [apply frames_video; vm_compute; reflexivity|]. split; [reflexivity|]. split; [unfold tracked; by_in|]. split; [|vm_compute; reflexivity].
  assert (H : forallb (freshb 1) ex15 = true) by (vm_compute; reflexivity). rewrite forallb_forall in H.
  intros f Hf. apply inb_not_In, negb_true_iff. exact (H f Hf).
Qed.
Example ex15_outcome : hit_counter ex15_s 1 = 10%Z /\ map (fun f => hit_counter (f_post f) 1) ex15 = [9; 3; 2]%Z.
Proof. split; vm_compute; reflexivity. Qed.
Example ex15_small : (forall f, In f ex17 -> (f_period f <= tc_hit_counter_max ex_conf)%Z) /\
  (forall i, ~ tracked ex_start i) /\ map (fun f => hit_counter (f_post f) 1) ex17 = [1; 2; 3; 3; 3]%Z.
Proof.
  split; [|split; [intros i []|vm_compute; reflexivity]].
  assert (H : forallb (fun f => (f_period f <=? tc_hit_counter_max ex_conf)%Z) ex17 = true) by (vm_compute; reflexivity).
  rewrite forallb_forall in H. intros f Hf. apply Z.leb_le, H, Hf.
Qed.

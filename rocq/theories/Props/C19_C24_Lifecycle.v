(** C19-C24: skipped frames, age, dead objects, re-identification, past detections, live points. *)
From Coq Require Import ZArith QArith Bool List Arith Lia Sorting.Sorted.
From Verif Require Import Model.Num Model.Base Model.Matching Model.Filter Model.Float32 Model.Tracker
  Spec.MatchingSpec Spec.ExampleTracker Spec.ExampleVideo
  Proofs.NumLaws Proofs.Float32Proofs Proofs.Effect Proofs.CallTheorems Proofs.CallTheorems2 Proofs.CallTheorems3
  Proofs.CallTheorems4 Proofs.CallTheorems6 Proofs.CallTheorems8 Proofs.PastProofs.
From Verif Require Import Spec.CallSpec.
Import ListNotations.
Local Open Scope nat_scope.

(** C19: the detector runs every p calls (call numbers divisible by p) with period=p; in between update() gets
    no detections. *)
Theorem C19_skipped_frames (N : Num) (laws : NumLaws N) (FO : filter_ops N) (c : tconf FO) (s : st FO) fs i p :
  rnd_ok (tc_rnd c) -> tracker_state c s -> video c s fs ->
  In i (get_active_objects s) -> tc_reid_max c = None -> tc_reid_distance c = None ->
  1 <= p -> (Z.of_nat p - 1 <= tc_hit_counter_max c)%Z ->
  (forall n f, nth_error fs n = Some f ->
     if Nat.eqb (n mod p) 0 then f_period f = Z.of_nat p /\ seen f i /\ fresh f i else f_dets f = []) ->
  forall f, In f fs -> In i (f_out f).
Proof. exact (skipped_frames laws c s fs i p). Qed.
Print Assumptions C19_skipped_frames.

(** C19: with re-identification, if hit_counter_max is at least p, the object has a hit left and its countdown is
    not running (and, with a reid_distance_function, it was created with a period of at least p/2). *)
Theorem C19_skipped_frames_reid (N : Num) (laws : NumLaws N) (FO : filter_ops N) (c : tconf FO) (s : st FO) fs i p :
  rnd_ok (tc_rnd c) -> tracker_state c s -> video c s fs ->
  In i (get_active_objects s) -> o_reid (s_store s i) = None -> (1 <= hit_counter s i)%Z ->
  1 <= p -> (Z.of_nat p <= tc_hit_counter_max c)%Z ->
  (tc_reid_distance c = None \/ (Z.of_nat p <= 2 * oc_initial_period (o_conf (s_store s i)))%Z) ->
  (forall n f, nth_error fs n = Some f ->
     if Nat.eqb (n mod p) 0 then f_period f = Z.of_nat p /\ seen f i /\ fresh f i else f_dets f = []) ->
  forall f, In f fs -> In i (f_out f).
Proof. exact (skipped_frames_reid laws c s fs i p). Qed.
Print Assumptions C19_skipped_frames_reid.

(** With reid_hit_counter_max, hit_counter_max = p - 1 is not enough: the countdown starts in a detector frame and is
    not stopped by the match, so the object, matched in every detector frame, is dropped in between. *)
Definition ex19r_conf : tconf exF :=
  MkTconf (ScalarDistance ex_distance) (DFin (5%Q : QNum)) 3 1 3 (0%Q : QNum) 2 None (DFin (0%Q : QNum)) (Some 1%Z) round32.
Definition ex19r_start : st exF := last_state ex_start (frames ex19r_conf ex_start ex_warm).
Definition ex19r_at (r : nat) (x : Q) : input QNum := MkInput [(r, ex_det x)] [r] 4 None.
Definition ex19r : list (frame exF) := frames ex19r_conf ex19r_start
  [ex19r_at 4 2; nothing; nothing; nothing; ex19r_at 5 2; nothing; nothing; nothing].
Definition ex19r_check (n : nat) (f : frame exF) : bool :=
  if Nat.eqb (n mod 4) 0 then Z.eqb (f_period f) 4 && seenb 1 f && freshb 1 f
  else match f_dets f with [] => true | _ => false end.
Theorem C19_reid_refuted : exists (c : tconf exF) (s : st exF) fs i p f,
  rnd_ok (tc_rnd c) /\ tracker_state c s /\ video c s fs /\ In i (get_active_objects s) /\ tc_reid_distance c = None /\
  o_reid (s_store s i) = None /\ (1 <= hit_counter s i)%Z /\ 1 <= p /\ (Z.of_nat p - 1 <= tc_hit_counter_max c)%Z /\
  (forall n f, nth_error fs n = Some f ->
     if Nat.eqb (n mod p) 0 then f_period f = Z.of_nat p /\ seen f i /\ fresh f i else f_dets f = []) /\
  In f fs /\ ~ In i (f_out f).
Proof.
  exists ex19r_conf, ex19r_start, ex19r, 1, 4, (nth 7 ex19r (MkFrame [] 0 None ex_start ex_start [])).
  split; [exact round32_not_nan|].
  split; [apply last_state_ok; [constructor|]; apply frames_video; vm_compute; reflexivity|].
  split; [apply frames_video; vm_compute; reflexivity|]. split; [by_in|]. split; [reflexivity|]. split; [vm_compute; reflexivity|].
  split; [vm_compute; discriminate|]. split; [repeat constructor|]. split; [vm_compute; discriminate|].
  split.
  - assert (H : forall_from ex19r_check 0 ex19r = true) by (vm_compute; reflexivity).
    intros n f Hf. apply (forall_from_ok ex19r_check ex19r 0 H n f) in Hf. unfold ex19r_check in Hf. change (Z.of_nat 4) with 4%Z.
    change (0 + n) with n in Hf. destruct (Nat.eqb (n mod 4) 0).
    + apply andb_prop in Hf as [Hc Hf]. apply andb_prop in Hc as [Hc Hs]. split; [exact (proj1 (Z.eqb_eq _ _) Hc)|].
      split; [exact (proj1 (inb_In _ _) Hs)|]. apply inb_not_In, negb_true_iff. exact Hf.
    + destruct (f_dets f); [reflexivity|discriminate].
  - split; [|by_in]. apply nth_In. vm_compute. repeat constructor.
Qed.
Print Assumptions C19_reid_refuted.

(** C20: age counts calls since creation. *)
Theorem C20_age_counts_calls (N : Num) (laws : NumLaws N) (FO : filter_ops N) (c : tconf FO) (s : st FO) f0 fs i :
  rnd_ok (tc_rnd c) -> tracker_state c s -> video c s (f0 :: fs) ->
  s_icount (f_pre f0) < i <= s_icount (f_post f0) ->
  forall n f, nth_error (f0 :: fs) n = Some f -> tracked (f_post f) i -> o_age (s_store (f_post f) i) = Z.of_nat n.
Proof. exact (age_counts_calls laws c s f0 fs i). Qed.
Print Assumptions C20_age_counts_calls.

(** C21: with reid_hit_counter_max = r an object with hit counter h that is never matched or merged again is
    tracked for exactly the next h + r + 2 calls, and not returned from the h-th on. *)
Theorem C21_dead_object_kept (N : Num) (laws : NumLaws N) (FO : filter_ops N) (c : tconf FO) (s : st FO) fs i h r :
  rnd_ok (tc_rnd c) -> tracker_state c s -> video c s fs ->
  tc_reid_max c = Some (Z.of_nat r) -> tracked s i -> o_reid (s_store s i) = None -> hit_counter s i = Z.of_nat h ->
  (forall f, In f fs -> ~ seen f i) ->
  forall n f, nth_error fs n = Some f -> (tracked (f_post f) i <-> n < h + r + 2) /\ (h <= n -> ~ In i (f_out f)).
Proof. exact (dead_object_kept laws c s fs i h r). Qed.
Print Assumptions C21_dead_object_kept.

(** C21: an object that was dropped never comes back. *)
Theorem C21_dropped_for_good (N : Num) (laws : NumLaws N) (FO : filter_ops N) (c : tconf FO) (s : st FO) fs i :
  rnd_ok (tc_rnd c) -> tracker_state c s -> video c s fs -> known s i -> ~ tracked s i ->
  forall n f, nth_error fs n = Some f -> ~ tracked (f_post f) i /\ ~ In i (f_out f).
Proof. exact (dropped_for_good laws c s fs i). Qed.
Print Assumptions C21_dropped_for_good.

(** C22: re-identification. [merged] lists the pairs (survivor i, absorbed j). *)
Theorem C22_merges_keep_identity (N : Num) (laws : NumLaws N) (FO : filter_ops N) (c : tconf FO) dets p ct (s s' : st FO) out :
  rnd_ok (tc_rnd c) -> tracker_state c s -> update c (Some dets) p ct s = (s', Ret out) ->
  exists merged : list (nat * nat),
    NoDup (map fst merged) /\ NoDup (map snd merged) /\
    (forall i j, In (i, j) merged ->
       let o := s_store s i in let o' := s_store s' i in let n := s_store s j in let n' := s_store s' j in
       tracked s i /\ tracked s j /\ tracked s' i /\ ~ tracked s' j /\
       o_initializing n = true /\ (o_initializing o = false \/ (o_hit o < 0)%Z) /\
       o_id o' = o_id o /\ o_gid o' = o_gid o /\ o_conf o' = o_conf o /\ o_initializing o' = o_initializing o /\
       o_age o' = (o_age o + 1)%Z /\ o_hit o' = (2 * oc_initial_period (o_conf o))%Z /\ o_reid o' = None /\
       o_last_det o' = o_last_det n' /\ In (o_last_det n') dets /\ o_last_distance o' = o_last_distance n' /\
       o_point_hits o' = o_point_hits n' /\ o_once o' = o_once n' /\ o_filter o' = o_filter n' /\
       oc_label (o_conf n) = oc_label (o_conf o) /\
       exists f vn vo d, tc_reid_distance c = Some f /\ f (VObj vn) vo = Ret d /\ v_obj vn = n' /\
         v_obj vo = set_min_distance (o_min_distance (v_obj vo)) (obj_update_ct ct (tracker_step o)) /\
         dlt (tc_rnd c d) (tc_reid_threshold c)) /\
    (forall j, matchable c s j -> ~ tracked s' j -> In j (map snd merged)).
Proof. exact (merges_keep_identity laws c dets p ct s s' out). Qed.
Print Assumptions C22_merges_keep_identity.

(** C23: size of past_detections, in every state. *)
Theorem C23_past_detections_bounded (N : Num) (FO : filter_ops N) (c : tconf FO) (s : st FO) i :
  tracker_state c s -> known s i -> length (o_past (s_store s i)) <= tc_past_len c.
Proof. exact (past_detections_bounded c s i). Qed.
Print Assumptions C23_past_detections_bounded.

(** C23: every entry is a detection that was matched to the object (with re-identification: to it or to an
    object of the same tracker) in some earlier call. *)
Theorem C23_past_detections_matched (N : Num) (laws : NumLaws N) (FO : filter_ops N) (c : tconf FO) (s : st FO) fs :
  rnd_ok (tc_rnd c) -> tracker_state c s -> s_icount s = 0 -> video c s fs ->
  forall n f i r, nth_error fs n = Some f -> known (f_post f) i -> In r (o_past (s_store (f_post f) i)) ->
  exists m g j, m <= n /\ nth_error fs m = Some g /\ In r (f_dets g) /\ last_det (f_post g) j = r /\
    (j = i \/ tc_reid_distance c <> None).
Proof. exact (past_detections_matched laws c s fs). Qed.
Print Assumptions C23_past_detections_matched.

(** C23: no Detection object is passed twice, and the program does not write the age of a detection it has
    passed.  Then in every tracked object the ages of past_detections are known, non-decreasing, and between
    0 and the age of the object. *)
Theorem C23_past_detections_ages (N : Num) (laws : NumLaws N) (FO : filter_ops N) (c : tconf FO) (s : st FO) fs :
  rnd_ok (tc_rnd c) -> tracker_state c s -> s_icount s = 0 -> video c s fs ->
  NoDup (List.concat (map f_dets fs)) ->
  (forall n f g r, nth_error fs n = Some f -> nth_error fs (S n) = Some g -> In r (List.concat (map f_dets (firstn (S n) fs))) ->
     d_age (s_heap (f_pre g) r) = d_age (s_heap (f_post f) r)) ->
  forall f i, In f fs -> tracked (f_post f) i ->
  exists ages, map (fun r => d_age (s_heap (f_post f) r)) (o_past (s_store (f_post f) i)) = map Some ages /\
    StronglySorted Z.le ages /\ Forall (fun a => 0 <= a <= o_age (s_store (f_post f) i))%Z ages.
Proof. exact (past_ages laws c s fs). Qed.
Print Assumptions C23_past_detections_ages.

(** C24: the counter of a point of an object that stays tracked, in one call. *)
Theorem C24_point_counter_law (N : Num) (laws : NumLaws N) (FO : filter_ops N) (c : tconf FO) dets p ct (s s' : st FO) out i k n :
  rnd_ok (tc_rnd c) -> tracker_state c s ->
  tc_reid_distance c = None -> update c (Some dets) p ct s = (s', Ret out) -> tracked s i -> tracked s' i ->
  point_counter s i k = Some n ->
  let d := s_heap s (last_det s' i) in
  let pw := Z.max (tc_pointwise_max c) (oc_initial_period (o_conf (s_store s i))) in
  (~ In (last_det s' i) dets -> point_counter s' i k = Some (n - 1)%Z) /\
  (In (last_det s' i) dets -> ~ In (last_det s i) dets -> above (tc_det_thr c) d k ->
     point_counter s' i k = Some (Z.max 0 (Z.min pw (n - 1 + 2 * p)))) /\
  (In (last_det s' i) dets -> ~ In (last_det s i) dets -> ~ above (tc_det_thr c) d k ->
     point_counter s' i k = Some (Z.max 0 (Z.min pw (n - 1)))) /\
  (~ (In (last_det s' i) dets /\ above (tc_det_thr c) d k) ->
     exists n', point_counter s' i k = Some n' /\ (n' <= Z.max 0 (n - 1))%Z).
Proof. exact (point_counter_law laws c dets p ct s s' out i k n). Qed.
Print Assumptions C24_point_counter_law.

(** C24, first part: bound of the counters.  Without reid distance j is i itself. *)
Theorem C24_point_counters_bounded (N : Num) (FO : filter_ops N) (c : tconf FO) (s : st FO) i :
  tracker_state c s -> known s i ->
  exists j, known s j /\ (tc_reid_distance c = None -> j = i) /\
    forall k n, point_counter s i k = Some n ->
      (n <= Z.max 1 (Z.max (tc_pointwise_max c) (oc_initial_period (o_conf (s_store s j)))))%Z.
Proof. exact (point_counters_bounded c s i). Qed.
Print Assumptions C24_point_counters_bounded.

(** C24, second part: a point not seen above the threshold for that many calls is not live. *)
Theorem C24_point_forgotten (N : Num) (laws : NumLaws N) (FO : filter_ops N) (c : tconf FO) (s : st FO) fs i k :
  rnd_ok (tc_rnd c) -> tracker_state c s -> tc_reid_distance c = None -> video c s fs -> tracked s i ->
  (forall f, In f fs -> ~ (seen f i /\ above (tc_det_thr c) (s_heap (f_pre f) (last_det (f_post f) i)) k)) ->
  forall n f, nth_error fs n = Some f -> tracked (f_post f) i ->
  (Z.max 1 (Z.max (tc_pointwise_max c) (oc_initial_period (o_conf (s_store s i)))) <= Z.of_nat (S n))%Z ->
  ~ live (f_post f) i k.
Proof. exact (point_forgotten laws c s fs i k). Qed.
Print Assumptions C24_point_forgotten.

(** C24, third part, when the counter was not negative before the call. *)
Theorem C24_seen_point_live_partial (N : Num) (laws : NumLaws N) (FO : filter_ops N) (c : tconf FO) dets p ct (s s' : st FO) out i k n :
  rnd_ok (tc_rnd c) -> tracker_state c s ->
  tc_reid_distance c = None -> update c (Some dets) p ct s = (s', Ret out) -> tracked s i -> tracked s' i ->
  point_counter s i k = Some n -> (0 <= n)%Z -> (1 <= p)%Z -> (1 <= tc_pointwise_max c)%Z ->
  In (last_det s' i) dets -> ~ In (last_det s i) dets -> above (tc_det_thr c) (s_heap s (last_det s' i)) k -> live s' i k.
Proof. exact (seen_point_live laws c dets p ct s s' out i k n). Qed.
Print Assumptions C24_seen_point_live_partial.

(** C24, third part, is false in general: after missed calls the counter is negative and one match does not
    make it positive.  Here the point was just seen (no scores at all) and is not live. *)
Definition ex24_conf : tconf exF :=
  MkTconf (ScalarDistance ex_distance) (DFin (5%Q : QNum)) 3 1 1 (0%Q : QNum) 2 None (DFin (0%Q : QNum)) None round32.
Definition ex24n : list (frame exF) := frames ex24_conf ex_start (ex_warm ++ [nothing; nothing; nothing; at_ 4 2]).
Theorem C24_seen_point_live_refuted : exists fs f,
  video ex24_conf ex_start (fs ++ [f]) /\ In 1 (f_out f) /\ seen f 1 /\ fresh f 1 /\
  above (tc_det_thr ex24_conf) (s_heap (f_pre f) (last_det (f_post f) 1)) 0 /\ live_points (s_store (f_post f) 1) = [false].
Proof.
  exists (firstn 6 ex24n), (nth 6 ex24n (hd (MkFrame [] 0 None ex_start ex_start []) ex24n)).
  split; [rewrite (snoc_split ex24n _ 6) by (vm_compute; reflexivity); apply frames_video; vm_compute; reflexivity|].
  split; [by_in|]. split; [by_in|].
  split; [by_in|]. split; [vm_compute; exact I|vm_compute; reflexivity].
Qed.
Print Assumptions C24_seen_point_live_refuted.

(* ---- concrete cases ---- *)
(** C19: period 3, hit_counter_max 3. *)
Definition ex19_at (r : nat) (x : Q) : input QNum := MkInput [(r, ex_det x)] [r] 3 None.
Definition ex19 : list (frame exF) := frames ex_conf ex_s3 [ex19_at 4 2; nothing; nothing; ex19_at 5 3; nothing; nothing; ex19_at 6 4; nothing].
Definition ex19_check (n : nat) (f : frame exF) : bool :=
  if Nat.eqb (n mod 3) 0 then Z.eqb (f_period f) (Z.of_nat 3) && seenb 1 f && freshb 1 f
  else match f_dets f with [] => true | _ => false end.
Lemma ex19_check_ok n f : ex19_check n f = true ->
  if Nat.eqb (n mod 3) 0 then f_period f = Z.of_nat 3 /\ seen f 1 /\ fresh f 1 else f_dets f = [].
Proof.
  unfold ex19_check. destruct (Nat.eqb (n mod 3) 0); intros H.
  - apply andb_prop in H as [H C]. apply andb_prop in H as [A B]. split; [exact (proj1 (Z.eqb_eq _ _) A)|].
    split; [exact (proj1 (inb_In _ _) B)|exact (proj1 (inb_not_In _ _) (proj1 (negb_true_iff _) C))].
  - destruct (f_dets f); [reflexivity|discriminate].
Qed.
Example ex19_hyps : tracker_state ex_conf ex_s3 /\ video ex_conf ex_s3 ex19 /\ In 1 (get_active_objects ex_s3) /\
  (forall n f, nth_error ex19 n = Some f ->
     if Nat.eqb (n mod 3) 0 then f_period f = Z.of_nat 3 /\ seen f 1 /\ fresh f 1 else f_dets f = []).
Proof.
  split; [exact ex_s3_state|]. split; [apply frames_video; vm_compute; reflexivity|]. split; [by_in|].
  assert (H : forall_from ex19_check 0 ex19 = true) by (vm_compute; reflexivity).
  intros n f Hf. exact (ex19_check_ok n f (forall_from_ok ex19_check ex19 0 H n f Hf)).
Qed.
(** The same with re-identification, p = 3 = hit_counter_max. *)
Example ex19s_hyps : tc_reid_max ex19r_conf <> None /\ In 1 (get_active_objects ex19r_start) /\ o_reid (s_store ex19r_start 1) = None /\
  hit_counter ex19r_start 1 = 3%Z /\ tc_hit_counter_max ex19r_conf = 3%Z /\
  forall_from ex19_check 0 (frames ex19r_conf ex19r_start [ex19_at 4 2; nothing; nothing; ex19_at 5 3; nothing; nothing; ex19_at 6 4; nothing]) = true /\
  map (@f_out QNum exF) (frames ex19r_conf ex19r_start [ex19_at 4 2; nothing; nothing; ex19_at 5 3; nothing; nothing; ex19_at 6 4; nothing]) = repeat [1] 8.
Proof. split; [discriminate|]. split; [by_in|]. vm_compute. repeat (split; [reflexivity|]). reflexivity. Qed.
Example ex19_outcome : map (@f_out QNum exF) ex19 = repeat [1] 8.
Proof. vm_compute. reflexivity. Qed.

(** C20, C21: an object seen three times, then never again; reid_hit_counter_max = 2: h = 3, so it is tracked
    by the next 3 + 2 + 2 = 7 calls. *)
Definition ex21_s : st exF := ex_r3 2.
Definition ex21 : list (frame exF) := frames (ex_conf_reid 2) ex21_s (repeat nothing 9).
Lemma ex21_state : tracker_state (ex_conf_reid 2) ex21_s.
Proof.
  refine (last_state_ok (ex_conf_reid 2) ex_start (frames (ex_conf_reid 2) ex_start ex_warm) (ex_start_state _) _).
  apply frames_video. vm_compute. reflexivity.
Qed.
Example ex21_hyps : tracker_state (ex_conf_reid 2) ex21_s /\ video (ex_conf_reid 2) ex21_s ex21 /\ tracked ex21_s 1 /\
  o_reid (s_store ex21_s 1) = None /\ hit_counter ex21_s 1 = Z.of_nat 3 /\ (forall f, In f ex21 -> ~ seen f 1).
Proof.
  split; [exact ex21_state|].
  split; [apply frames_video; vm_compute; reflexivity|]. split; [by_in|].
  split; [vm_compute; reflexivity|]. split; [vm_compute; reflexivity|]. apply none_seen. vm_compute. reflexivity.
Qed.
Example ex21_outcome : map (fun f => (inb 1 (s_tracked (f_post f)), o_age (s_store (f_post f) 1), f_out f)) ex21 =
  [(true, 3%Z, [1]); (true, 4%Z, [1]); (true, 5%Z, [1]); (true, 6%Z, []); (true, 7%Z, []); (true, 8%Z, []); (true, 9%Z, []);
   (false, 9%Z, []); (false, 9%Z, [])].
Proof. vm_compute. reflexivity. Qed.

(** C22: object 1 is lost at 2; a new object appears at 30 and is re-identified as object 1. *)
Definition ex22 : list (frame exF) := frames (ex_conf_reid 2) ex_start (ex_warm ++ [nothing; nothing; at_ 4 30; at_ 5 31; at_ 6 32]).
Example ex22_video : video (ex_conf_reid 2) ex_start ex22.
Proof. apply frames_video. vm_compute. reflexivity. Qed.
Example ex22_outcome : map (fun f => (s_tracked (f_post f), f_out f, last_det (f_post f) 1, hit_counter (f_post f) 1)) (skipn 5 ex22) =
  [([1; 2], [1], 3, 0%Z); ([1], [1], 5, 2%Z); ([1], [1], 6, 3%Z)].
Proof. vm_compute. reflexivity. Qed.

(** C23: past_detections_length 2 in the same video. *)
Example ex23_outcome : map (fun f => o_past (s_store (f_post f) 1)) ex22 =
  [[1]; [1; 2]; [2; 3]; [2; 3]; [2; 3]; [2; 3]; [4; 5]; [4; 5]].
Proof. vm_compute. reflexivity. Qed.
Definition ex23_age_eqb (a b : option Z) : bool :=
  match a, b with None, None => true | Some x, Some y => (x =? y)%Z | _, _ => false end.
Definition ex23_check (l : list (frame exF)) (n : nat) (f : frame exF) : bool :=
  match nth_error l (S n) with
  | None => true
  | Some g => forallb (fun r => ex23_age_eqb (d_age (s_heap (f_pre g) r)) (d_age (s_heap (f_post f) r)))
                (List.concat (map f_dets (firstn (S n) l)))
  end.
Lemma ex23_check_ok l : forall_from (ex23_check l) 0 l = true ->
  forall n f g r, nth_error l n = Some f -> nth_error l (S n) = Some g -> In r (List.concat (map f_dets (firstn (S n) l))) ->
     d_age (s_heap (f_pre g) r) = d_age (s_heap (f_post f) r).
Proof.
  intros H n f g r Hf Hg Hr. pose proof (forall_from_ok (ex23_check l) l 0 H n f Hf) as X.
  unfold ex23_check in X. change (0 + n) with n in X. rewrite Hg, forallb_forall in X. specialize (X r Hr).
  destruct (d_age (s_heap (f_pre g) r)), (d_age (s_heap (f_post f) r)); try discriminate; auto.
  apply Z.eqb_eq in X. congruence.
Qed.
Example ex23_hyps : tracker_state (ex_conf_reid 2) ex_start /\ s_icount ex_start = 0 /\ NoDup (List.concat (map f_dets ex22)) /\
  (forall n f g r, nth_error ex22 n = Some f -> nth_error ex22 (S n) = Some g -> In r (List.concat (map f_dets (firstn (S n) ex22))) ->
     d_age (s_heap (f_pre g) r) = d_age (s_heap (f_post f) r)).
Proof.
  split; [apply ex_start_state|]. split; [reflexivity|]. split.
  { assert (E : List.concat (map f_dets ex22) = [1; 2; 3; 4; 5; 6]) by (vm_compute; reflexivity). rewrite E.
    repeat (constructor; [cbn; intuition discriminate|]). constructor. }
  apply ex23_check_ok. vm_compute. reflexivity.
Qed.
Example ex23_ages : map (fun f => map (fun r => d_age (s_heap (f_post f) r)) (o_past (s_store (f_post f) 1))) ex22 =
  [[Some 0]; [Some 0; Some 1]; [Some 1; Some 2]; [Some 1; Some 2]; [Some 1; Some 2]; [Some 1; Some 2]; [Some 6; Some 6]; [Some 6; Some 6]]%Z.
Proof. vm_compute. reflexivity. Qed.

(** C24: two points, the second one is never confident. *)
Definition ex24_det (x y : Q) : detection QNum := new_detection [[(x : QNum)]; [(x : QNum)]] (Some [(1%Q : QNum); (y : QNum)]) [] LNone.
Definition ex24 : list (frame exF) := frames ex_conf ex_start
  [MkInput [(1, ex24_det 0 1)] [1] 1 None; MkInput [(2, ex24_det 0 1)] [2] 1 None; MkInput [(3, ex24_det 0 0)] [3] 1 None;
   MkInput [(4, ex24_det 0 0)] [4] 1 None; MkInput [(5, ex24_det 0 (- (1)))] [5] 1 None].
Example ex24_video : video ex_conf ex_start ex24.
Proof. apply frames_video. vm_compute. reflexivity. Qed.
Example ex24_outcome : map (fun f => (o_point_hits (s_store (f_post f) 1), live_points (s_store (f_post f) 1))) ex24 =
  [([1; 1]%Z, [true; true]); ([2; 2]%Z, [true; true]); ([3; 1]%Z, [true; true]); ([3; 0]%Z, [true; false]); ([3; 0]%Z, [true; false])].
Proof. vm_compute. reflexivity. Qed.

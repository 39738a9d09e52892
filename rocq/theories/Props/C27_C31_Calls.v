(** C27, C28, C30, C31, C45: exceptions, empty calls, constructor, absolute estimates. *)
From Coq Require Import ZArith QArith Bool List Arith Lia String.
From Verif Require Import Model.Num Model.Base Model.Matching Model.Filter Model.Float32 Model.Tracker
  Spec.MatchingSpec Spec.DistanceSpec Spec.ExampleTracker Spec.ExampleVideo
  Proofs.NumLaws Proofs.Float32Proofs Proofs.Effect Proofs.CallTheorems5 Proofs.CallTheorems7 Proofs.CallTheorems8.
From Verif Require Import Spec.CallSpec.
Import ListNotations.
Local Open Scope nat_scope.

(** C27: NaN for a detection and an initialized object: update() raises ValueError, no object is created and no
    id assigned; objects have only made their step. ([s0] is the state the distances are computed in.) *)
Theorem C27_nan_raises (N : Num) (FO : filter_ops N) (c : tconf FO) f dets p ct (s : st FO) i r :
  rnd_ok (tc_rnd c) -> tracker_state c s ->
  tc_distance c = ScalarDistance f -> (forall v w, exists d, f v w = Ret d) ->
  let s0 := snd (begin_update c dets ct s) in
  matchable c s i -> o_initializing (s_store s i) = false -> In r dets ->
  d_label (s_heap s0 r) = obj_label s0 i -> f (VDet (s_heap s0 r)) (view_obj s0 i) = Ret DNaN ->
  exists s', update c (Some dets) p ct s = (s', Raise EValueError) /\
    s_icount s' = s_icount s /\ s_count s' = s_count s /\ s_gcount s' = s_gcount s /\ incl (s_tracked s') (s_tracked s) /\
    (forall j, tracked s' j -> s_store s' j = obj_update_ct ct (tracker_step (s_store s j))) /\
    (forall j, known s j -> ~ tracked s' j -> s_store s' j = s_store s j).
Proof. exact (nan_raises c f dets p ct s i r). Qed.
Print Assumptions C27_nan_raises.

(** C27: the same for vectorized distances (computed pair by pair from the coordinates). *)
Theorem C27_nan_raises_vectorized (N : Num) (FO : filter_ops N) (c : tconf FO) f g dets p ct (s : st FO) i r :
  rnd_ok (tc_rnd c) -> tracker_state c s -> tc_distance c = VectorizedDistance f -> pointwise f g ->
  let s0 := snd (begin_update c dets ct s) in
  (forall objects, (forall j, In j objects -> tracked s0 j) -> uniform_printed s0 objects (map CDet dets)) ->
  matchable c s i -> o_initializing (s_store s i) = false -> In r dets ->
  label_str (d_label (s_heap s0 r)) = label_str (obj_label s0 i) ->
  g (List.concat (d_points (s_heap s0 r))) (List.concat (estimate (s_store s0 i))) = DNaN ->
  exists s', update c (Some dets) p ct s = (s', Raise EValueError) /\
    s_icount s' = s_icount s /\ s_count s' = s_count s /\ s_gcount s' = s_gcount s /\ incl (s_tracked s') (s_tracked s) /\
    (forall j, tracked s' j -> s_store s' j = obj_update_ct ct (tracker_step (s_store s j))) /\
    (forall j, known s j -> ~ tracked s' j -> s_store s' j = s_store s j).
Proof. exact (nan_raises_vectorized c f g dets p ct s i r). Qed.
Print Assumptions C27_nan_raises_vectorized.

(** C27: whenever update() returns, no distance it looked at was NaN: first for initialized objects ... *)
Theorem C27_returned_no_nan (N : Num) (laws : NumLaws N) (FO : filter_ops N) (c : tconf FO) f dets p ct (s s' : st FO) out i r :
  rnd_ok (tc_rnd c) -> tracker_state c s ->
  tc_distance c = ScalarDistance f -> update c (Some dets) p ct s = (s', Ret out) ->
  let s0 := snd (begin_update c dets ct s) in
  matchable c s i -> o_initializing (s_store s i) = false -> In r dets -> d_label (s_heap s0 r) = obj_label s0 i ->
  exists d, f (VDet (s_heap s0 r)) (view_obj s0 i) = Ret d /\ d <> DNaN.
Proof. exact (returned_no_nan laws c f dets p ct s s' out i r). Qed.
Print Assumptions C27_returned_no_nan.

(** ... and then for initializing objects and the detections that are left. *)
Theorem C27_returned_no_nan_initializing (N : Num) (laws : NumLaws N) (FO : filter_ops N) (c : tconf FO) f dets p ct
    (s s' : st FO) out i r :
  rnd_ok (tc_rnd c) -> tracker_state c s ->
  tc_distance c = ScalarDistance f -> update c (Some dets) p ct s = (s', Ret out) ->
  let s0 := snd (begin_update c dets ct s) in
  matchable c s i -> o_initializing (s_store s i) = true -> In r dets -> d_label (s_heap s0 r) = obj_label s0 i ->
  (forall j, matchable c s j -> o_initializing (s_store s j) = false -> last_det s' j <> r) ->
  exists (s1 : st FO) d, s_store s1 i = s_store s0 i /\ (forall q, upto_age (s_heap s0 q) (s_heap s1 q)) /\
    f (VDet (s_heap s1 r)) (view_obj s1 i) = Ret d /\ d <> DNaN.
Proof. exact (returned_no_nan_initializing laws c f dets p ct s s' out i r). Qed.
Print Assumptions C27_returned_no_nan_initializing.

(** C27: after any call, also one that raised at any point, ids are unique, gap-free and stable, and the
    state is again a tracker state (so every theorem about tracker states applies to the calls that follow). *)
Theorem C27_ids_after_any_call (N : Num) (FO : filter_ops N) (c : tconf FO) (s : st FO) dets p ct :
  tracker_state c s ->
  let s' := fst (update c dets p ct s) in
  tracker_state c s' /\
  (forall i j a, known s' i -> known s' j -> o_id (s_store s' i) = Some a -> o_id (s_store s' j) = Some a -> i = j) /\
  (forall i a, known s' i -> o_id (s_store s' i) = Some a -> 1 <= a <= total_object_count s') /\
  (forall a, 1 <= a <= total_object_count s' -> exists i, known s' i /\ o_id (s_store s' i) = Some a) /\
  (forall i, known s i -> known s' i /\ forall a, o_id (s_store s i) = Some a -> o_id (s_store s' i) = Some a).
Proof. exact (ids_after_any_call c s dets p ct). Qed.
Print Assumptions C27_ids_after_any_call.

(** C28: update() with an empty list never raises and only ages the tracker. *)
Theorem C28_no_detections (N : Num) (FO : filter_ops N) (c : tconf FO) p ct (s : st FO) : tracker_state c s ->
  exists s', update c (Some []) p ct s = (s', Ret (get_active_objects s')) /\
    s_heap s' = s_heap s /\ s_icount s' = s_icount s /\ s_count s' = s_count s /\ s_gcount s' = s_gcount s /\
    incl (s_tracked s') (s_tracked s) /\
    (forall i, tracked s' i -> s_store s' i = obj_update_ct ct (tracker_step (s_store s i))) /\
    (forall i, known s i -> ~ tracked s' i -> s_store s' i = s_store s i).
Proof. exact (no_detections c p ct s). Qed.
Print Assumptions C28_no_detections.

(** What one step does to the counters of an object. *)
Theorem C28_step (N : Num) (FO : filter_ops N) (o : tobj FO) ct :
  let o' := obj_update_ct ct (tracker_step o) in
  o_hit o' = (o_hit o - 1)%Z /\ o_age o' = (o_age o + 1)%Z /\ o_id o' = o_id o /\ o_last_det o' = o_last_det o /\
  o_initializing o' = o_initializing o /\ o_past o' = o_past o /\ o_filter o' = f_predict FO (o_filter o).
Proof. exact (step_counters o ct). Qed.
Print Assumptions C28_step.

(** C30: constructor validation.  [by_name] is the table of named distances, which raises only ValueError. *)
Theorem C30_constructor_validation (N : Num) (FO : filter_ops N) rnd (by_name : string -> result (distance FO)) (a : targs FO) :
  (forall n e, by_name n = Raise e -> e = EValueError) ->
  let bad_distance := match a_distance a with
                      | DName n => exists e, by_name n = Raise e | DCallable _ => False | DOther => True end in
  let bad_delay := exists v, a_delay a = Some v /\ (v < 0 \/ a_hit_counter_max a <= v)%Z in
  (tracker_init rnd by_name a = Raise EValueError <-> bad_distance \/ (a_past_len a < 0)%Z \/ bad_delay) /\
  (forall e, tracker_init rnd by_name a = Raise e -> e = EValueError) /\
  (forall c, tracker_init rnd by_name a = Ret c ->
     tc_delay c = match a_delay a with Some v => v | None => Z.quot (a_hit_counter_max a) 2 end /\
     tc_hit_counter_max c = a_hit_counter_max a /\ tc_threshold c = a_threshold a /\ tc_pointwise_max c = a_pointwise_max a /\
     tc_det_thr c = a_det_thr a /\ Z.of_nat (tc_past_len c) = a_past_len a /\ tc_reid_distance c = a_reid_distance a /\
     tc_reid_threshold c = a_reid_threshold a /\ tc_reid_max c = a_reid_max a /\
     match a_distance a with DName n => by_name n = Ret (tc_distance c) | DCallable f => tc_distance c = ScalarDistance f | DOther => False end).
Proof. exact (constructor_validation rnd by_name a). Qed.
Print Assumptions C30_constructor_validation.

(** C31, without a coordinate transformation. *)
Theorem C31_none_is_empty_partial (N : Num) (FO : filter_ops N) (c : tconf FO) p (s : st FO) :
  update c None p None s = update c (Some []) p None s.
Proof. exact (none_is_empty c p s). Qed.
Print Assumptions C31_none_is_empty_partial.

(** C31 is false with a transformation: detections=None raises TypeError, an empty list is accepted. *)
Theorem C31_none_refuted (N : Num) (FO : filter_ops N) (c : tconf FO) p T (s : st FO) : tracker_state c s ->
  update c None p (Some T) s = (s, Raise ETypeError) /\ exists s' out, update c (Some []) p (Some T) s = (s', Ret out).
Proof. exact (none_refuted c p T s). Qed.
Print Assumptions C31_none_refuted.

(** C45: object i is created by call 0; after call n, [T] is the transformation given last in calls 0..n. *)
Theorem C45_latest_transformation (N : Num) (laws : NumLaws N) (FO : filter_ops N) (c : tconf FO) (s : st FO) f0 fs i :
  rnd_ok (tc_rnd c) -> tracker_state c s -> video c s (f0 :: fs) ->
  s_icount (f_pre f0) < i <= s_icount (f_post f0) ->
  forall n f, nth_error (f0 :: fs) n = Some f -> tracked (f_post f) i ->
  let o := s_store (f_post f) i in
  match last_ct (firstn (S n) (f0 :: fs)) with
  | None => get_estimate o true = Raise EValueError /\ exists x, get_estimate o false = Ret x
  | Some T => exists x, get_estimate o true = Ret x /\ get_estimate o false = Ret (ct_abs_to_rel T x)
  end.
Proof. exact (latest_transformation laws c s f0 fs i). Qed.
Print Assumptions C45_latest_transformation.

(* ---- concrete cases ---- *)
(** C27: a distance that is NaN for detections at 7. *)
Definition ex27_distance (v : cview exF) (o : oview exF) : result (dval QNum) :=
  match v with
  | VDet d => if Qeq_bool (ex_point (d_absolute_points d)) 7 then Ret DNaN else ex_distance v o
  | VObj _ => ex_distance v o
  end.
Definition ex27_conf : tconf exF :=
  MkTconf (ScalarDistance ex27_distance) (DFin (5%Q : QNum)) 3 1 3 (0%Q : QNum) 2 None (DFin (0%Q : QNum)) None round32.
Definition ex27_s : st exF :=
  meanwhile (last_state ex_start (frames ex27_conf ex_start ex_warm)) (put (fun _ => ex_det 0) [(4, ex_det 7); (5, ex_det 90)]) 5.
Lemma ex27_warm_state : tracker_state ex27_conf (last_state ex_start (frames ex27_conf ex_start ex_warm)).
Proof.
  refine (last_state_ok ex27_conf ex_start (frames ex27_conf ex_start ex_warm) (ex_start_state _) _).
  apply frames_video. vm_compute. reflexivity.
Qed.
Lemma ex27_state : tracker_state ex27_conf ex27_s.
Proof. apply (ts_meanwhile ex27_conf _ _ _ ex27_warm_state). vm_compute. repeat constructor. Qed.
Example ex27_hyps : tracker_state ex27_conf ex27_s /\ (forall v w, exists d, ex27_distance v w = Ret d) /\
  let s0 := snd (begin_update ex27_conf [5; 4] None ex27_s) in
  tracked ex27_s 1 /\ o_initializing (s_store ex27_s 1) = false /\
  d_label (s_heap s0 4) = obj_label s0 1 /\ ex27_distance (VDet (s_heap s0 4)) (view_obj s0 1) = Ret DNaN.
Proof.
  split; [exact ex27_state|]. split; [intros [d|o] w; unfold ex27_distance; try destruct (Qeq_bool _ _); eexists; reflexivity|].
  cbv zeta. split; [by_in|]. split; [vm_compute; reflexivity|]. split; vm_compute; reflexivity.
Qed.
Example ex27_outcome : snd (update ex27_conf (Some [5; 4]) 1 None ex27_s) = Raise EValueError /\
  snd (update ex27_conf (Some [5]) 1 None (fst (update ex27_conf (Some [5; 4]) 1 None ex27_s))) = Ret [1].
Proof. vm_compute. split; reflexivity. Qed.
(** The same with a vectorized distance. *)
Definition ex27_pair (x y : list QNum) : dval QNum :=
  match x, y with a :: _, b :: _ => if Qeq_bool a 7 then DNaN else DFin (ex_abs (Qred (a - b)) : QNum) | _, _ => DPInf end.
Definition ex27v_conf : tconf exF :=
  MkTconf (VectorizedDistance (fun cs os => Ret (map (fun c => map (ex27_pair c) os) cs))) (DFin (5%Q : QNum)) 3 1 3 (0%Q : QNum) 2
    None (DFin (0%Q : QNum)) None round32.
Definition ex27v_s : st exF :=
  meanwhile (last_state ex_start (frames ex27v_conf ex_start ex_warm)) (put (fun _ => ex_det 0) [(4, ex_det 7); (5, ex_det 90)]) 5.
Example ex27v_hyps : tracker_state ex27v_conf ex27v_s /\
  let s0 := snd (begin_update ex27v_conf [5; 4] None ex27v_s) in
  (forall objects, (forall j, In j objects -> tracked s0 j) -> uniform_printed s0 objects (map CDet [5; 4])) /\
  tracked ex27v_s 1 /\ o_initializing (s_store ex27v_s 1) = false /\
  label_str (d_label (s_heap s0 4)) = label_str (obj_label s0 1) /\
  ex27_pair (List.concat (d_points (s_heap s0 4))) (List.concat (estimate (s_store s0 1))) = DNaN.
Proof.
  split.
  { refine (ts_meanwhile ex27v_conf _ _ _ (last_state_ok ex27v_conf ex_start (frames ex27v_conf ex_start ex_warm) (ex_start_state _) _) _).
    - apply frames_video. vm_compute. reflexivity.
    - vm_compute. repeat constructor. }
  intros s0. split.
  { assert (T : s_tracked s0 = [1]) by (vm_compute; reflexivity). intros objects Ho. split.
    - intros i j Hi Hj _. apply Ho in Hi. apply Ho in Hj. unfold tracked in *. rewrite T in Hi, Hj.
      destruct Hi as [<-|[]], Hj as [<-|[]]. reflexivity.
    - intros a b [<-|[<-|[]]] [<-|[<-|[]]] _; vm_compute; reflexivity. }
  split; [by_in|]. split; [vm_compute; reflexivity|]. split; vm_compute; reflexivity.
Qed.
Example ex27v_outcome : snd (update ex27v_conf (Some [5; 4]) 1 None ex27v_s) = Raise EValueError.
Proof. vm_compute. reflexivity. Qed.

(** C28. *)
Example ex28_outcome : snd (update ex_conf (Some []) 1 None ex_s3) = Ret [1].
Proof. vm_compute. reflexivity. Qed.

(** C30. *)
Definition ex30_names (n : string) : result (distance exF) :=
  if String.eqb n "euclidean" then Ret (ScalarDistance ex_distance) else Raise EValueError.
Definition ex30 (d : @dist_arg QNum exF) (hcm : Z) (delay : option Z) (past : Z) : targs exF :=
  MkTargs d (DFin (1%Q : QNum)) hcm delay 4 (0%Q : QNum) past None (DFin (0%Q : QNum)) None.
Example ex30_outcome :
  map (fun a => match tracker_init round32 ex30_names a with Ret c => Ret (tc_delay c) | Raise e => Raise e end)
    [ex30 (DName "euclidean") 15 None 4; ex30 (DName "euclid") 15 None 4; ex30 (DCallable ex_distance) 15 (Some 15%Z) 4;
     ex30 (DCallable ex_distance) 15 (Some 14%Z) 0; ex30 DOther 15 None 4; ex30 (DName "euclidean") 15 None (-1);
     ex30 (DName "euclidean") 15 (Some (-1)%Z) 4] =
  [Ret 7%Z; Raise EValueError; Raise EValueError; Ret 14%Z; Raise EValueError; Raise EValueError; Raise EValueError].
Proof. vm_compute. reflexivity. Qed.

(** C45: the camera is given in the second and the third call only. *)
Definition ex45_shift (x : Q) (p : points QNum) : points QNum := map (map (fun y : QNum => (Qred (y + x) : QNum))) p.
Definition ex45_T (x : Q) : coord_transformation QNum := MkCT (ex45_shift x) (ex45_shift (- x)).
Definition ex45 : list (frame exF) := frames ex_conf ex_start
  [at_ 1 0; MkInput [(2, ex_det 1)] [2] 1 (Some (ex45_T 1)); MkInput [(3, ex_det 0)] [3] 1 (Some (ex45_T 2)); nothing].
Example ex45_video : video ex_conf ex_start ex45.
Proof. apply frames_video. vm_compute. reflexivity. Qed.
Example ex45_outcome :
  map (fun f => (get_estimate (s_store (f_post f) 1) true, get_estimate (s_store (f_post f) 1) false)) ex45 =
  [(Raise EValueError, Ret [[0%Q : QNum]]); (Ret [[0%Q : QNum]], Ret [[1%Q : QNum]]);
   (Ret [[(-2)%Q : QNum]], Ret [[0%Q : QNum]]); (Ret [[(-2)%Q : QNum]], Ret [[0%Q : QNum]])].
Proof. vm_compute. reflexivity. Qed.

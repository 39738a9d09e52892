(** C05-C07: what one update() call does with its detections.  All theorems hold for every tracker
    configuration, filter, distance function and every state a tracker can be in. *)
From Coq Require Import ZArith QArith Bool List Arith Lia.
From Verif Require Import Model.Num Model.Base Model.Matching Model.Filter Model.Float32 Model.Tracker
  Spec.MatchingSpec Spec.ExampleTracker Spec.ExampleVideo
  Proofs.NumLaws Proofs.Float32Proofs Proofs.Effect Proofs.CallTheorems Proofs.CallTheorems3 Proofs.CallTheorems5.
From Verif Require Import Spec.CallSpec.
Import ListNotations.
Local Open Scope nat_scope.

(** C05: every detection is matched to exactly one tracked object or becomes exactly one new object. *)
Theorem C05_detections_accounted (N : Num) (laws : NumLaws N) (FO : filter_ops N) (c : tconf FO) dets p ct (s s' : st FO) out :
  rnd_ok (tc_rnd c) -> tracker_state c s -> update c (Some dets) p ct s = (s', Ret out) ->
  exists matched created, accounted dets s s' matched created.
Proof. exact (update_accounted laws c dets p ct s s' out). Qed.
Print Assumptions C05_detections_accounted.

(** C06: the call matches in two phases: first the initialized objects with all detections, then the
    initializing objects with the detections left over; both phases are stable one-to-one matchings. *)
Theorem C06_two_phases (N : Num) (laws : NumLaws N) (FO : filter_ops N) (c : tconf FO) dets p ct (s s' : st FO) out :
  rnd_ok (tc_rnd c) -> tracker_state c s -> update c (Some dets) p ct s = (s', Ret out) ->
  exists ini uni M1 M2 P1 P2, two_phases c dets s (snd (begin_update c dets ct s)) s' ini uni M1 M2 P1 P2.
Proof. exact (initialized_first laws c dets p ct s s' out). Qed.
Print Assumptions C06_two_phases.

(** C06: a detection below the threshold for an initialized object that stays unmatched was given to another
    initialized object that is not farther away. *)
Theorem C06_initialized_served_first (N : Num) (laws : NumLaws N) (FO : filter_ops N) (c : tconf FO) f dets p ct
    (s s' : st FO) out i r d :
  rnd_ok (tc_rnd c) -> tracker_state c s ->
  tc_distance c = ScalarDistance f -> update c (Some dets) p ct s = (s', Ret out) ->
  let s0 := snd (begin_update c dets ct s) in
  matchable c s i -> o_initializing (s_store s i) = false -> ~ In (last_det s' i) dets ->
  In r dets -> d_label (s_heap s0 r) = obj_label s0 i ->
  f (VDet (s_heap s0 r)) (view_obj s0 i) = Ret d -> dlt (tc_rnd c d) (tc_threshold c) ->
  exists i' d', matchable c s i' /\ o_initializing (s_store s i') = false /\ last_det s' i' = r /\
    f (VDet (s_heap s0 r)) (view_obj s0 i') = Ret d' /\ dle (tc_rnd c d') (tc_rnd c d).
Proof. exact (initialized_served laws c f dets p ct s s' out i r d). Qed.
Print Assumptions C06_initialized_served_first.

(** C07: in one call objects only take detections with their own label, and labels never change. *)
Theorem C07_labels_match (N : Num) (laws : NumLaws N) (FO : filter_ops N) (c : tconf FO) f dets p ct (s s' : st FO) out :
  rnd_ok (tc_rnd c) -> tracker_state c s ->
  tc_distance c = ScalarDistance f -> update c (Some dets) p ct s = (s', Ret out) ->
  (forall i, known s' i -> last_det s' i <> last_det s i \/ ~ known s i ->
     obj_label s' i = d_label (s_heap s (last_det s' i))) /\
  (forall i, known s i -> obj_label s' i = obj_label s i) /\
  (forall r, d_label (s_heap s' r) = d_label (s_heap s r)).
Proof. exact (labels_match laws c f dets p ct s s' out). Qed.
Print Assumptions C07_labels_match.

(** C07 over a whole video in which the user does not change labels of detections: at every moment the label
    of every object is the label of its last detection. *)
Theorem C07_labels_never_mix (N : Num) (laws : NumLaws N) (FO : filter_ops N) (c : tconf FO) f lab (s : st FO) fs :
  rnd_ok (tc_rnd c) -> tracker_state c s -> s_icount s = 0 ->
  tc_distance c = ScalarDistance f -> video c s fs ->
  (forall f r, In f fs -> d_label (s_heap (f_pre f) r) = lab r) ->
  forall f i, In f fs -> known (f_post f) i -> obj_label (f_post f) i = lab (last_det (f_post f) i).
Proof. exact (labels_never_mix laws c f lab s fs). Qed.
Print Assumptions C07_labels_never_mix.

(* ---- concrete cases ---- *)
(** Object 1 (initialized, near 2) and object 2 (initializing, near 40); three detections: one for each and
    one new. *)
Definition ex5_ins : list (input QNum) := ex_warm ++ [MkInput [(4, ex_det 2); (5, ex_det 40)] [5; 4] 1 None;
  MkInput [(6, ex_det 41); (7, ex_det 80); (8, ex_det 3)] [6; 7; 8] 1 None].
Definition ex5 : list (frame exF) := frames ex_conf ex_start ex5_ins.
Example ex5_video : video ex_conf ex_start ex5 /\ rnd_ok (tc_rnd ex_conf).
Proof. split; [apply frames_video; vm_compute; reflexivity|exact round32_not_nan]. Qed.
Example ex5_outcome :
  map (fun f => (f_out f, s_tracked (f_post f), map (last_det (f_post f)) (s_tracked (f_post f)))) (skipn 3 ex5)
  = [([1], [1; 2], [4; 5]); ([1; 2], [1; 2; 3], [8; 6; 7])].
Proof. vm_compute. reflexivity. Qed.

(** Two initialized objects near 2 and 4, one detection at 3 + 3/4: the second object gets it. *)
Definition ex6_ins : list (input QNum) :=
  [MkInput [(1, ex_det 0); (2, ex_det 10)] [1; 2] 1 None; MkInput [(3, ex_det 1); (4, ex_det 7)] [3; 4] 1 None;
   MkInput [(5, ex_det 2); (6, ex_det 4)] [5; 6] 1 None].
Definition ex6_s : st exF := last_state ex_start (frames ex_conf ex_start ex6_ins).
Example ex6_state : tracker_state ex_conf ex6_s.
Proof. apply last_state_ok; [constructor|]. apply frames_video. vm_compute. reflexivity. Qed.
Definition ex6_pre : st exF := meanwhile ex6_s (put (s_heap ex6_s) [(7, ex_det (15 # 4))]) (s_gcount ex6_s).
Example ex6_served :
  let (s', out) := update ex_conf (Some [7]) 1 None ex6_pre in
  out = Ret [1; 2] /\ last_det s' 1 = 5 /\ last_det s' 2 = 7 /\
  matchable ex_conf ex6_pre 1 /\ o_initializing (s_store ex6_pre 1) = false /\
  (let s0 := snd (begin_update ex_conf [7] None ex6_pre) in
   ex_distance (VDet (s_heap s0 7)) (view_obj s0 1) = Ret (DFin ((7 # 4)%Q : QNum)) /\
   dlt (tc_rnd ex_conf (DFin ((7 # 4)%Q : QNum))) (tc_threshold ex_conf)).
Proof. vm_compute. repeat split; auto; try (intros H; discriminate H). Qed.

(** Two labels: detections near each other but with other labels are never mixed. *)
Definition ex7_det (x : Q) (l : label) : detection QNum := new_detection [[(x : QNum)]] None [] l.
Definition ex7_ins : list (input QNum) :=
  [MkInput [(1, ex7_det 0 (LInt 1)); (2, ex7_det 0 (LInt 2))] [1; 2] 1 None;
   MkInput [(3, ex7_det 0 (LInt 2)); (4, ex7_det 0 (LInt 1))] [3; 4] 1 None].
Definition ex7 : list (frame exF) := frames ex_conf ex_start ex7_ins.
Example ex7_video : video ex_conf ex_start ex7.
Proof. apply frames_video. vm_compute. reflexivity. Qed.
Example ex7_outcome : map (fun f => (map (last_det (f_post f)) [1; 2], map (obj_label (f_post f)) [1; 2])) ex7
  = [([1; 2], [LInt 1; LInt 2]); ([4; 3], [LInt 1; LInt 2])].
Proof. vm_compute. reflexivity. Qed.

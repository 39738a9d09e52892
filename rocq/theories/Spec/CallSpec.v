(** Vocabulary for the calls of one tracker.  [st] is the state of one tracker together with the shared
    heap of detections and the process-wide id counter. *)
From Coq Require Import ZArith List Arith Permutation.
From Verif Require Import Model.Num Model.Base Model.Matching Model.Filter Model.Tracker Spec.MatchingSpec.
Import ListNotations.

Section S.
Context {N : Num} {FO : filter_ops N}.
Notation st := (st FO).

(** Between two calls of a tracker the rest of the program may create or modify detections and advance
    the process-wide id counter, but it does not touch this tracker. *)
Definition meanwhile (s : st) (heap : nat -> detection N) (g : nat) : st :=
  MkSt heap g (s_store s) (s_tracked s) (s_count s) (s_icount s).

(** The states a tracker with configuration [c] can be in, through any calls (also ones that raised). *)
Inductive tracker_state (c : tconf FO) : st -> Prop :=
| ts_new heap g dummy : tracker_state c (MkSt heap g (fun _ => dummy) [] 0 0)
| ts_meanwhile s heap g : tracker_state c s -> s_gcount s <= g -> tracker_state c (meanwhile s heap g)
| ts_update s dets p ct : tracker_state c s -> tracker_state c (fst (update c dets p ct s)).

(** One call that returned normally: arguments, state before, state after, returned objects. *)
Record frame := MkFrame {
  f_dets : list nat;
  f_period : Z;
  f_ct : option (coord_transformation N);
  f_pre : st;
  f_post : st;
  f_out : list nat
}.

(** Successive calls of one tracker, all returning normally, starting in state [s]. *)
Inductive video (c : tconf FO) : st -> list frame -> Prop :=
| video_nil s : video c s []
| video_cons s heap g dets p ct s' out fs :
    s_gcount s <= g ->
    update c (Some dets) p ct (meanwhile s heap g) = (s', Ret out) ->
    video c s' fs ->
    video c s (MkFrame dets p ct (meanwhile s heap g) s' out :: fs).

Definition last_det (s : st) (i : nat) : nat := o_last_det (s_store s i).
Definition hit_counter (s : st) (i : nat) : Z := o_hit (s_store s i).
Definition tracked (s : st) (i : nat) : Prop := In i (s_tracked s).
(** Object [i] has been created by this tracker, dead or alive. *)
Definition known (s : st) (i : nat) : Prop := 1 <= i <= s_icount s.

(** Object [i] can be matched in the next call: its hit_counter is not negative and its
    re-identification countdown (if any) is not over. *)
Definition matchable (c : tconf FO) (s : st) (i : nat) : Prop :=
  tracked s i /\ (0 <= hit_counter s i)%Z /\
  (tc_reid_max c <> None -> match o_reid (s_store s i) with None => True | Some r => (0 <= r)%Z end).

(** After the call the last_detection of object [i] is one of the detections of the call. *)
Definition seen (f : frame) (i : nat) : Prop := In (last_det (f_post f) i) (f_dets f).
(** The detection the object was matched to before is not passed in again. *)
Definition fresh (f : frame) (i : nat) : Prop := ~ In (last_det (f_pre f) i) (f_dets f).

(** C05: every detection of the call is accounted for once, by a pair (object, detection) or by a new
    object. *)
Record accounted (dets : list nat) (s s' : st) (matched : list (nat * nat)) (created : list nat) : Prop := {
  ac_once : Permutation dets (map snd matched ++ created);
  ac_one_each : NoDup (map fst matched);
  ac_matched : forall i r, In (i, r) matched -> tracked s i /\ last_det s' i = r;
  ac_created : forall k r, nth_error created k = Some r ->
     let i := S (s_icount s) + k in tracked s' i /\ last_det s' i = r /\ o_age (s_store s' i) = 0%Z;
  ac_count : s_icount s' = s_icount s + length created;
  ac_nothing_else : forall i, tracked s' i -> tracked s i \/ s_icount s < i <= s_icount s';
  ac_others : forall i, tracked s i -> ~ In i (map fst matched) -> last_det s' i <> last_det s i ->
     (* re-identification: it took over the detection of an object that disappeared *)
     exists j, In (j, last_det s' i) matched /\ ~ tracked s' j
}.

(** [P] (pairs of positions) is a stable one-to-one matching below the threshold for the table [M]. *)
Definition good_matching (n m : nat) (M : matrix N) (thr : dval N) (P : list (nat * nat)) : Prop :=
  one_to_one P /\ in_range n m P /\ below (entry M) thr P /\ stable n m (entry M) thr P.

(** The elements of [l] at positions that do not occur in [used], in order. *)
Fixpoint others (used : list nat) (k : nat) (l : list nat) : list nat :=
  match l with
  | [] => []
  | a :: l' => if in_dec Nat.eq_dec k used then others used (S k) l' else a :: others used (S k) l'
  end.

(** Two detections that differ at most in the attribute [age], which norfair writes. *)
Definition upto_age (d d' : detection N) : Prop :=
  d_points d = d_points d' /\ d_scores d = d_scores d' /\ d_label d = d_label d' /\ d_data d = d_data d' /\
  d_absolute_points d = d_absolute_points d'.

(** C06: the matching of one call, phase by phase.  [s0] is the state in which every kept object has made
    its step; positions refer to the lists [dets], [ini], [rest], [uni]. *)
Record two_phases (c : tconf FO) (dets : list nat) (s s0 s' : st) (ini uni : list nat) (M1 M2 : matrix N)
    (P1 P2 : list (nat * nat)) : Prop := {
  tp_ini : forall i, In i ini <-> matchable c s i /\ o_initializing (s_store s i) = false;
  tp_uni : forall i, In i uni <-> matchable c s i /\ o_initializing (s_store s i) = true;
  tp_matrix1 : dets <> [] -> get_distances (tc_rnd c) (tc_distance c) s0 ini (map CDet dets) = Ret M1;
  tp_nan1 : nan_free M1;
  tp_match1 : good_matching (length dets) (length ini) M1 (tc_threshold c) P1;
  tp_last1 : forall a b, In (a, b) P1 -> last_det s' (nth b ini 0) = nth a dets 0;
  tp_matrix2 : let rest := others (map fst P1) 0 dets in rest <> [] -> exists s1,
     (forall i, In i uni -> s_store s1 i = s_store s0 i) /\ (forall r, upto_age (s_heap s0 r) (s_heap s1 r)) /\
     get_distances (tc_rnd c) (tc_distance c) s1 uni (map CDet rest) = Ret M2;
  tp_nan2 : nan_free M2;
  tp_match2 : good_matching (length (others (map fst P1) 0 dets)) (length uni) M2 (tc_threshold c) P2;
  tp_last2 : forall a b, In (a, b) P2 -> last_det s' (nth b uni 0) = nth a (others (map fst P1) 0 dets) 0;
  tp_created : s_icount s' - s_icount s = length (others (map fst P2) 0 (others (map fst P1) 0 dets))
}.

(** Counter of point [k] of object [i], when it has that many points. *)
Definition point_counter (s : st) (i k : nat) : option Z := nth_error (o_point_hits (s_store s i)) k.
(** live_points[k] is True. *)
Definition live (s : st) (i k : nat) : Prop := nth_error (live_points (s_store s i)) k = Some true.
(** In detection [d] the score of point [k] is above [thr] (always, if there are no scores). *)
Definition above (thr : N) (d : detection N) (k : nat) : Prop :=
  match d_scores d with None => True | Some sc => exists x, nth_error sc k = Some x /\ nltb thr x = true end.

(** The coordinate transformation given most recently in these calls. *)
Definition last_ct (fs : list frame) : option (coord_transformation N) :=
  fold_left (fun acc f => match f_ct f with Some T => Some T | None => acc end) fs None.
End S.
Arguments frame {N} FO.

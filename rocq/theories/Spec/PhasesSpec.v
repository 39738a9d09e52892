(** Vocabulary for the three association steps of a call and for what they leave in the objects.
    Positions refer to the lists of rows (detections, or fresh objects) and columns (objects). *)
From Coq Require Import ZArith List Arith Sorting.Sorted.
From Verif Require Import Model.Num Model.Base Model.Matching Model.Filter Model.Tracker
  Spec.MatchingSpec Spec.CallSpec Spec.PointSpec.
Import ListNotations.

Section S.
Context {N : Num} {FO : filter_ops N}.
Notation st := (st FO).

Definition last_distance (s : st) (i : nat) : option (dval N) := o_last_distance (s_store s i).
Definition current_min_distance (s : st) (i : nat) : option (dval N) := o_min_distance (s_store s i).

(** [m] is the smallest value in column [b] of a table with [n] rows. *)
Definition column_min (n : nat) (d : nat -> nat -> dval N) (b : nat) (m : dval N) : Prop :=
  (exists a, a < n /\ m = d a b) /\ forall a, a < n -> dle m (d a b).

(** What a table with [n] rows and [m] columns makes of the current_min_distance of the object in column
    [b]: the column minimum when it is below the threshold, else None; untouched when the whole table
    consists of zeros. *)
Definition min_law (n m : nat) (d : nat -> nat -> dval N) (thr : dval N) (b : nat) (old new : option (dval N)) : Prop :=
  ((exists a b', a < n /\ b' < m /\ dtruth (d a b') = true) ->
     exists v, column_min n d b v /\ (dlt v thr -> new = Some v) /\ (~ dlt v thr -> new = None)) /\
  ((forall a b', a < n -> b' < m -> dtruth (d a b') = false) -> new = old).

(** The greedy assignment of all [n] rows and [m] columns. *)
Definition greedy_all (n m : nat) (d : nat -> nat -> dval N) (thr : dval N) (P : list (nat * nat)) : Prop :=
  greedy d thr (seq 0 n) (seq 0 m) P.

(** C52: with the tables and pairs of C06, the distances the objects remember. *)
Record distances_recorded (c : tconf FO) (dets : list nat) (s s' : st) (ini uni : list nat) (M1 M2 : matrix N)
    (P1 P2 : list (nat * nat)) : Prop := {
  dr_sorted1 : StronglySorted lt ini;                        (* columns: oldest object first *)
  dr_sorted2 : StronglySorted lt uni;
  dr_greedy1 : greedy_all (length dets) (length ini) (entry M1) (tc_threshold c) P1;
  dr_greedy2 : greedy_all (length (others (map fst P1) 0 dets)) (length uni) (entry M2) (tc_threshold c) P2;
  dr_last1 : forall a b, In (a, b) P1 -> last_distance s' (nth b ini 0) = Some (entry M1 a b);
  dr_last2 : forall a b, In (a, b) P2 -> last_distance s' (nth b uni 0) = Some (entry M2 a b);
  dr_last_else : forall i, tracked s i ->
     ~ In i (map (fun q => nth (snd q) ini 0) P1) -> ~ In i (map (fun q => nth (snd q) uni 0) P2) ->
     last_distance s' i = last_distance s i \/
     (* re-identification *)
     exists j, tracked s j /\ ~ tracked s' j /\ last_distance s' i = last_distance s' j;
  dr_min1 : forall b, b < length ini -> dets <> [] -> (tc_reid_distance c = None \/ In b (map snd P1)) ->
     min_law (length dets) (length ini) (entry M1) (tc_threshold c) b
       (current_min_distance s (nth b ini 0)) (current_min_distance s' (nth b ini 0));
  dr_min2 : let rest := others (map fst P1) 0 dets in forall b, b < length uni -> rest <> [] ->
     min_law (length rest) (length uni) (entry M2) (tc_threshold c) b
       (current_min_distance s (nth b uni 0)) (current_min_distance s' (nth b uni 0));
  dr_min_else : tc_reid_distance c = None -> forall i, tracked s i ->
     (In i ini -> dets = []) -> (In i uni -> others (map fst P1) 0 dets = []) ->
     current_min_distance s' i = current_min_distance s i
}.

(** Object [i] has no hits left but its re-identification countdown is not over. *)
Definition retired (c : tconf FO) (s : st) (i : nat) : Prop :=
  tracked s i /\ (hit_counter s i < 0)%Z /\ tc_reid_max c <> None /\
  match o_reid (s_store s i) with None => True | Some r => (0 <= r)%Z end.

(** C56: the re-identification step.  Columns [lost]: the initialized objects that got no detection in
    this call, then the retired ones.  Rows [fresh]: the initializing objects that got a detection. *)
Record reidentification (c : tconf FO) (s s0 s' : st) (ini uni : list nat) (P1 P2 : list (nat * nat))
    (old lost fresh : list nat) (M3 : matrix N) (P3 : list (nat * nat)) : Prop := {
  re_old : forall i, In i old <-> retired c s i;
  re_old_sorted : StronglySorted lt old;
  re_lost : lost = others (map snd P1) 0 ini ++ old;
  re_fresh : fresh = map (fun q => nth (snd q) uni 0) P2;
  re_off : tc_reid_distance c = None -> P3 = [];
  re_matrix : forall f, tc_reid_distance c = Some f -> fresh <> [] -> exists s2,
     (forall j, In j fresh -> s_store s2 j = s_store s' j) /\
     (forall i, In i lost -> exists m, s_store s2 i = set_min_distance m (s_store s0 i)) /\
     (forall r, upto_age (s_heap s0 r) (s_heap s2 r)) /\
     get_distances (tc_rnd c) (ScalarDistance f) s2 lost (map CObj fresh) = Ret M3;
  re_nan : nan_free M3;
  re_greedy : tc_reid_distance c <> None ->
     greedy_all (length fresh) (length lost) (entry M3) (tc_reid_threshold c) P3;
  re_merge : forall a b, In (a, b) P3 ->
     let i := nth b lost 0 in let j := nth a fresh 0 in
     tracked s' i /\ ~ tracked s' j /\ last_det s' i = last_det s' j /\ last_distance s' i = last_distance s' j /\
     current_min_distance s' i = current_min_distance s' j /\ o_filter (s_store s' i) = o_filter (s_store s' j);
  re_kept : forall j, In j fresh -> ~ In j (map (fun q => nth (fst q) fresh 0) P3) -> tracked s' j
}.

(** past_detections of object [i] and the attribute [age] of a detection. *)
Definition past (s : st) (i : nat) : list nat := o_past (s_store s i).
Definition det_age (s : st) (r : nat) : option Z := d_age (s_heap s r).

(** C53: [new] is the list of past detections made of [old] when detection [r] is matched, the object is
    [now] calls old and the ages of the detections are [age]. *)
Record past_updated (len : nat) (now : Z) (age : nat -> option Z) (old : list nat) (r : nat) (new : list nat) : Prop := {
  pu_off : len = 0 -> new = old;
  pu_room : 0 < len -> length old < len -> new = old ++ [r];
  pu_full : 0 < len -> len <= length old -> exists first rest a, old = first :: rest /\ age first = Some a /\
     ((a * Z.of_nat len <= now)%Z -> new = rest ++ [r]) /\ ((now < a * Z.of_nat len)%Z -> new = old)
}.

(** C54: everything one can read off an object that was created in a call with period [p] and
    transformation [ct], in the state [s'] after the call. *)
Record newborn (c : tconf FO) (p : Z) (ct : option (coord_transformation N)) (s' : st) (i : nat) : Prop := {
  nb_hit : hit_counter s' i = p;
  nb_age : o_age (s_store s' i) = 0%Z;
  nb_init : o_initializing (s_store s' i) = true <-> (p <= tc_delay c)%Z;
  nb_label : oc_label (o_conf (s_store s' i)) = d_label (s_heap s' (last_det s' i));
  nb_last_distance : last_distance s' i = None;
  nb_min_distance : current_min_distance s' i = None;
  nb_reid : o_reid (s_store s' i) = None;
  nb_past : past s' i = if Nat.eqb (tc_past_len c) 0 then [] else [last_det s' i];
  nb_det_age : det_age s' (last_det s' i) = Some 0%Z;
  nb_points : num_points s' i = length (d_absolute_points (s_heap s' (last_det s' i)));
  nb_counters1 : forall k, k < num_points s' i -> above (tc_det_thr c) (s_heap s' (last_det s' i)) k -> point_counter s' i k = Some 1%Z;
  nb_counters0 : forall k sc, d_scores (s_heap s' (last_det s' i)) = Some sc -> k < length sc ->
     ~ above (tc_det_thr c) (s_heap s' (last_det s' i)) k -> point_counter s' i k = Some 0%Z;
  nb_once : forall k, k < num_points s' i -> (detected_before s' i k <-> above (tc_det_thr c) (s_heap s' (last_det s' i)) k);
  nb_place : forall n dim, 0 < dim -> 0 < n -> rectangular n dim (d_absolute_points (s_heap s' (last_det s' i))) ->
     dim_points s' i = dim /\ absolute_estimate (s_store s' i) = d_absolute_points (s_heap s' (last_det s' i)) /\
     estimate (s_store s' i) = match ct with
       | None => d_absolute_points (s_heap s' (last_det s' i))
       | Some T => ct_abs_to_rel T (d_absolute_points (s_heap s' (last_det s' i))) end /\
     estimate_velocity (s_store s' i) = repeat (repeat n0 dim) n
}.
End S.

(** A filter that starts in the first detection, at rest. *)
Definition starts_at_rest {N : Num} (FO : filter_ops N) : Prop :=
  forall p, f_x FO (f_create FO p) = flatten p ++ repeat n0 (length (flatten p)).

(** Reading the state vector of a filter and writing it back makes no difference. *)
Record rewritable {N : Num} (FO : filter_ops N) (wf : nat -> fstate FO -> Prop) (same : fstate FO -> fstate FO -> Prop) : Prop := {
  rw_refl : forall f, same f f;
  rw_trans : forall f g h, same f g -> same g h -> same f h;
  rw_x : forall f g, same f g -> f_x FO f = f_x FO g;
  rw_predict : forall f g, same f g -> same (f_predict FO f) (f_predict FO g);
  rw_update : forall f g z m, same f g -> same (f_update FO f z m) (f_update FO g z m);
  rw_back : forall d f, wf d f -> same (f_set_x FO f (f_x FO f)) f
}.

Section Replay.
Context {N : Num} {FO : filter_ops N}.

Definition aboveb (thr : N) (d : detection N) (k : nat) : bool :=
  match d_scores d with
  | None => true
  | Some sc => match nth_error sc k with Some x => nltb thr x | None => false end
  end.

(** The diagonal of H: all coordinates of the points above the threshold. *)
Definition sensors (thr : N) (n dim : nat) (d : detection N) : list N :=
  flat_map (fun k => repeat (if aboveb thr d k then n1 else n0) dim) (seq 0 n).

(** C55: the filter of an object created from the points [pts], after the calls [fs]: one prediction per
    call, and one correction for the detection matched in the call. *)
Definition replay (thr : N) (n dim i : nat) (pts : points N) (fs : list (CallSpec.frame FO)) : fstate FO :=
  fold_left (fun flt f =>
    let flt := f_predict FO flt in
    let r := last_det (f_post f) i in
    if in_dec Nat.eq_dec r (f_dets f) then
      let d := s_heap (f_post f) r in f_update FO flt (List.concat (d_absolute_points d)) (sensors thr n dim d)
    else flt) fs (f_create FO pts).
End Replay.

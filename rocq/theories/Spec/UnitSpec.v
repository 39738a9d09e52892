(** Vocabulary for C93: the same video in other coordinates, x_k becoming scale_k * x_k + shift_k. *)
From Coq Require Import ZArith Reals List Arith Bool.
From Verif Require Import Model.Num Model.Base Model.Matching Model.Filter Model.Tracker Spec.CallSpec Spec.ExampleVideo Spec.PointSpec
  Spec.LabelSpec.
Import ListNotations.

(** [[f(k, x) for k, x in enumerate(l, start)]]. *)
Fixpoint enum_map {A B} (f : nat -> A -> B) (start : nat) (l : list A) : list B :=
  match l with [] => [] | x :: l' => f start x :: enum_map f (S start) l' end.

Record units (N : Num) := MkUnits { u_scale : nat -> N; u_shift : nat -> N }.
Arguments u_scale {N} _ _.
Arguments u_shift {N} _ _.
Arguments MkUnits {N} _ _.

Section S.
Context {N : Num} {FO : filter_ops N}.
Variable dim : nat.
Variable u : units N.

(** Positions in the new coordinates; velocities are only scaled. *)
Definition in_units (p : points N) : points N := map (enum_map (fun k x => nadd (nmul (u_scale u k) x) (u_shift u k)) 0) p.
Definition velocity_in_units (p : points N) : points N := map (enum_map (fun k x => nmul (u_scale u k) x) 0) p.
Definition det_in_units (d : detection N) : detection N :=
  MkDet (in_units (d_points d)) (d_scores d) (d_label d) (in_units (d_absolute_points d)) (d_age d) (d_data d).

(** An array of shape (n, dim) with n > 0. *)
Definition shaped (p : points N) : Prop := p <> [] /\ Forall (fun row => length row = dim) p.
Definition det_shaped (d : detection N) : Prop :=
  shaped (d_points d) /\ shaped (d_absolute_points d) /\ length (d_absolute_points d) = length (d_points d).
(** If the tracker may merge objects, detections with the same label have the same number of points. *)
Definition det_sized (c : tconf FO) (size : label -> nat) (d : detection N) : Prop :=
  tc_reid_distance c <> None -> length (d_points d) = size (d_label d).

Definition result_map {A B} (f : A -> B) (r : result A) : result B := match r with Ret a => Ret (f a) | Raise e => Raise e end.

(** A change of the unit of distances: it keeps their order, NaN, zero and infinity. *)
Record distance_unit (dh : dval N -> dval N) : Prop := {
  du_order : forall x y, dltb (dh x) (dh y) = dltb x y;
  du_nan : forall x, dis_nan (dh x) = dis_nan x;
  du_zero : forall x, dtruth (dh x) = dtruth x;
  du_infinity : dh DPInf = DPInf
}.

(** Two objects that are the same in the two coordinate systems. *)
Record obj_in_units (dh dr : dval N -> dval N) (o o' : tobj FO) : Prop := {
  ou_conf : o_conf o' = o_conf o;
  ou_hit : o_hit o' = o_hit o;
  ou_reid : o_reid o' = o_reid o;
  ou_last_det : o_last_det o' = o_last_det o;
  ou_age : o_age o' = o_age o;
  ou_initializing : o_initializing o' = o_initializing o;
  ou_id : o_id o' = o_id o;
  ou_gid : o_gid o' = o_gid o;
  ou_once : o_once o' = o_once o;
  ou_point_hits : o_point_hits o' = o_point_hits o;
  ou_past : o_past o' = o_past o;
  ou_last_distance : o_last_distance o' = option_map dh (o_last_distance o);
  ou_min_distance : o_min_distance o' = option_map dh (o_min_distance o) \/ o_min_distance o' = option_map dr (o_min_distance o);
  ou_estimate : estimate o' = in_units (estimate o);
  ou_absolute : get_estimate o' true = result_map in_units (get_estimate o true);
  ou_velocity : estimate_velocity o' = velocity_in_units (estimate_velocity o);
  ou_shaped : shaped (estimate o)
}.

(** What distance functions are given. *)
Record view_in_units (dh dr : dval N -> dval N) (v v' : oview FO) : Prop := {
  vu_object : obj_in_units dh dr (v_obj v) (v_obj v');
  vu_last : v_last v' = det_in_units (v_last v);
  vu_past : v_past v' = map det_in_units (v_past v);
  vu_shaped : det_shaped (v_last v) /\ Forall det_shaped (v_past v)
}.
Definition cand_in_units (dh dr : dval N -> dval N) (c c' : cview FO) : Prop :=
  match c, c' with
  | VDet d, VDet d' => d' = det_in_units d /\ det_shaped d
  | VObj v, VObj v' => view_in_units dh dr v v'
  | _, _ => False
  end.
(** [f'] gives in the new coordinates what [f] gives in the old ones, up to the unit [k] of distances. *)
Definition scalar_in_units (dh dr k : dval N -> dval N) (f f' : cview FO -> oview FO -> result (dval N)) : Prop :=
  forall c c' o o', cand_in_units dh dr c c' -> view_in_units dh dr o o' -> f' c' o' = result_map k (f c o).
Definition vector_in_units (k : dval N -> dval N) (f f' : list (list N) -> list (list N) -> result (list (list (dval N)))) : Prop :=
  forall ps qs, Forall shaped ps -> Forall shaped qs ->
    f' (map (fun p => flatten (in_units p)) ps) (map (fun q => flatten (in_units q)) qs) =
    result_map (map (map k)) (f (map flatten ps) (map flatten qs)).

(** The matching stops: threshold + 1 is a number that is not below the threshold. *)
Definition can_stop (rnd : dval N -> dval N) (thr : dval N) : Prop :=
  dis_nan (rnd (dsucc thr)) = false /\ dltb (rnd (dsucc thr)) thr = false.

(** The tracker for the new coordinates: thresholds and distance functions in the new units, all other arguments the
    same. *)
Record conf_in_units (dh dr : dval N -> dval N) (c c' : tconf FO) : Prop := {
  cu_distance : match tc_distance c, tc_distance c' with
                | ScalarDistance f, ScalarDistance f' => scalar_in_units dh dr dh f f'
                | VectorizedDistance f, VectorizedDistance f' => vector_in_units dh f f'
                | _, _ => False
                end;
  cu_reid : match tc_reid_distance c, tc_reid_distance c' with
            | None, None => True
            | Some f, Some f' => scalar_in_units dh dr dr f f'
            | _, _ => False
            end;
  cu_threshold : tc_threshold c' = dh (tc_threshold c);
  cu_reid_threshold : tc_reid_threshold c' = dr (tc_reid_threshold c);
  cu_rounding : forall d, tc_rnd c' (dh d) = dh (tc_rnd c d) /\ tc_rnd c' (dr d) = dr (tc_rnd c d);
  cu_stops : can_stop (tc_rnd c) (tc_threshold c) /\ can_stop (tc_rnd c') (tc_threshold c') /\
             can_stop (tc_rnd c) (tc_reid_threshold c) /\ can_stop (tc_rnd c') (tc_reid_threshold c');
  cu_same : tc_hit_counter_max c' = tc_hit_counter_max c /\ tc_delay c' = tc_delay c /\ tc_pointwise_max c' = tc_pointwise_max c /\
            tc_det_thr c' = tc_det_thr c /\ tc_past_len c' = tc_past_len c /\ tc_reid_max c' = tc_reid_max c
}.

(** A filter that works the same in both coordinate systems: there is a relation of its states, for vectors of length
    [d] = n * dim, that all operations keep. *)
Definition flat_in_units (v : list N) : list N := enum_map (fun j x => nadd (nmul (u_scale u (j mod dim)) x) (u_shift u (j mod dim))) 0 v.
Definition flat_velocity (v : list N) : list N := enum_map (fun j x => nmul (u_scale u (j mod dim)) x) 0 v.
Definition state_in_units (d : nat) (x : list N) : list N := flat_in_units (firstn d x) ++ flat_velocity (skipn d x).
Record filter_in_units (R : nat -> fstate FO -> fstate FO -> Prop) : Prop := {
  fu_create : forall p, shaped p -> R (length (flatten p)) (f_create FO p) (f_create FO (in_units p));
  fu_predict : forall d f f', R d f f' -> R d (f_predict FO f) (f_predict FO f');
  fu_update : forall d f f' z mask, R d f f' -> length z = d -> length mask = d ->
    let diagonal := map (fun m : bool => if m then n1 else n0) mask in
    R d (f_update FO f z diagonal) (f_update FO f' (flat_in_units z) diagonal);
  fu_x : forall d f f', R d f f' -> length (f_x FO f) = 2 * d /\ f_x FO f' = state_in_units d (f_x FO f);
  fu_set_x : forall d f f' x, R d f f' -> length x = 2 * d -> R d (f_set_x FO f x) (f_set_x FO f' (state_in_units d x))
}.

(** The camera motion in both systems. *)
Definition ct_in_units (T T' : option (coord_transformation N)) : Prop :=
  match T, T' with
  | None, None => True
  | Some T, Some T' => forall p, shaped p ->
      shaped (ct_rel_to_abs T p) /\ length (ct_rel_to_abs T p) = length p /\
      ct_rel_to_abs T' (in_units p) = in_units (ct_rel_to_abs T p) /\
      shaped (ct_abs_to_rel T p) /\ ct_abs_to_rel T' (in_units p) = in_units (ct_abs_to_rel T p)
  | _, _ => False
  end.

(** One call in both systems: the same new detections, the same list. *)
Definition input_in_units (x x' : input N) : Prop :=
  in_new x' = map (fun rd => (fst rd, det_in_units (snd rd))) (in_new x) /\ Forall (fun rd => det_shaped (snd rd)) (in_new x) /\
  in_dets x' = in_dets x /\ in_period x' = in_period x /\ ct_in_units (in_ct x) (in_ct x').

(** State and result after each call; the program may go on after an exception. *)
Fixpoint outcomes (c : tconf FO) (s : st FO) (ins : list (input N)) : list (st FO * result (list nat)) :=
  match ins with
  | [] => []
  | x :: ins' =>
    let a := update c (Some (in_dets x)) (in_period x) (in_ct x) (meanwhile s (put (s_heap s) (in_new x)) (s_gcount s)) in
    a :: outcomes c (fst a) ins'
  end.

(** The same outcome in both systems. *)
Record outcome_in_units (dh dr : dval N -> dval N) (a a' : st FO * result (list nat)) : Prop := {
  eu_result : snd a' = snd a;
  eu_tracked : s_tracked (fst a') = s_tracked (fst a);
  eu_total : total_object_count (fst a') = total_object_count (fst a);
  eu_global : s_gcount (fst a') = s_gcount (fst a);
  eu_objects : forall i, tracked (fst a) i -> obj_in_units dh dr (s_store (fst a) i) (s_store (fst a') i);
  eu_detections : forall r, s_heap (fst a') r = det_in_units (s_heap (fst a) r)
}.
End S.

(** Distances multiplied by [c]. *)
Definition scaled (c : R) (d : dval RNum) : dval RNum := match d with DFin x => @DFin RNum (c * x)%R | v => v end.

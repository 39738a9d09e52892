(** Vocabulary for C111: the same video with the coordinates of the points in another order. *)
From Coq Require Import ZArith Reals List Arith Bool Permutation.
From Verif Require Import Model.Num Model.Base Model.Matching Model.Filter Model.Tracker Spec.CallSpec Spec.ExampleVideo Spec.PointSpec
  Spec.LabelSpec Spec.UnitSpec.
Import ListNotations.

(** [[l[j] for j in order]]. *)
Definition picks {A} (dflt : A) (order : list nat) (l : list A) : list A := map (fun j => nth j l dflt) order.
(** The points in the order [sigma], with the axes in the order [tau]. *)
Definition points_and_axes {N : Num} (sigma tau : list nat) (p : points N) : points N := picks [] sigma (map (picks n0 tau) p).
(** The same as an order of all coordinates, coordinate k of point i being number dim * i + k. *)
Definition pa_order (dim : nat) (sigma tau : list nat) : list nat := flat_map (fun i => map (fun k => dim * i + k) tau) sigma.

Section S.
Context {N : Num} {FO : filter_ops N}.
(** All detections have [n] points with [dim] coordinates each; [order] is an order of the n * dim coordinates. *)
Variables dim n : nat.
Variable order : list nat.
Definition is_order : Prop := Permutation order (seq 0 (dim * n)).

Definition in_order (p : points N) : points N := reshape_rows dim (picks n0 order (flatten p)).
Definition det_in_order (d : detection N) : detection N :=
  MkDet (in_order (d_points d)) (d_scores d) (d_label d) (in_order (d_absolute_points d)) (d_age d) (d_data d).
Definition sized (p : points N) : Prop := length p = n /\ Forall (fun row => length row = dim) p.
(** Detections without scores. *)
Definition det_unscored (d : detection N) : Prop := sized (d_points d) /\ sized (d_absolute_points d) /\ d_scores d = None.

(** Two objects that differ only in the order of coordinates. *)
Record obj_in_order (o o' : tobj FO) : Prop := {
  oo_conf : o_conf o' = o_conf o;
  oo_hit : o_hit o' = o_hit o;
  oo_reid : o_reid o' = o_reid o;
  oo_last_det : o_last_det o' = o_last_det o;
  oo_age : o_age o' = o_age o;
  oo_initializing : o_initializing o' = o_initializing o;
  oo_id : o_id o' = o_id o;
  oo_gid : o_gid o' = o_gid o;
  oo_once : o_once o' = o_once o;
  oo_point_hits : o_point_hits o' = o_point_hits o;
  oo_past : o_past o' = o_past o;
  oo_last_distance : o_last_distance o' = o_last_distance o;
  oo_min_distance : o_min_distance o' = o_min_distance o;
  oo_estimate : estimate o' = in_order (estimate o);
  oo_absolute : get_estimate o' true = result_map in_order (get_estimate o true);
  oo_velocity : estimate_velocity o' = in_order (estimate_velocity o);
  oo_sized : sized (estimate o)
}.
Record view_in_order (v v' : oview FO) : Prop := {
  vo_object : obj_in_order (v_obj v) (v_obj v');
  vo_last : v_last v' = det_in_order (v_last v);
  vo_past : v_past v' = map det_in_order (v_past v);
  vo_unscored : det_unscored (v_last v) /\ Forall det_unscored (v_past v)
}.
Definition cand_in_order (c c' : cview FO) : Prop :=
  match c, c' with
  | VDet d, VDet d' => d' = det_in_order d /\ det_unscored d
  | VObj v, VObj v' => view_in_order v v'
  | _, _ => False
  end.
(** [f'] gives in the new order what [f] gives in the old one; with [f' = f]: the distance does not depend on the
    order. *)
Definition scalar_in_order (f f' : cview FO -> oview FO -> result (dval N)) : Prop :=
  forall c c' o o', cand_in_order c c' -> view_in_order o o' -> f' c' o' = f c o.
Definition vector_in_order (f f' : list (list N) -> list (list N) -> result (list (list (dval N)))) : Prop :=
  forall ps qs, Forall sized ps -> Forall sized qs ->
    f' (map (fun p => flatten (in_order p)) ps) (map (fun q => flatten (in_order q)) qs) = f (map flatten ps) (map flatten qs).
Record conf_in_order (c c' : tconf FO) : Prop := {
  co_distance : match tc_distance c, tc_distance c' with
                | ScalarDistance f, ScalarDistance f' => scalar_in_order f f'
                | VectorizedDistance f, VectorizedDistance f' => vector_in_order f f'
                | _, _ => False
                end;
  co_reid : match tc_reid_distance c, tc_reid_distance c' with
            | None, None => True
            | Some f, Some f' => scalar_in_order f f'
            | _, _ => False
            end;
  co_threshold : tc_threshold c' = tc_threshold c /\ tc_reid_threshold c' = tc_reid_threshold c /\ tc_rnd c' = tc_rnd c;
  co_same : tc_hit_counter_max c' = tc_hit_counter_max c /\ tc_delay c' = tc_delay c /\ tc_pointwise_max c' = tc_pointwise_max c /\
            tc_det_thr c' = tc_det_thr c /\ tc_past_len c' = tc_past_len c /\ tc_reid_max c' = tc_reid_max c
}.

(** A filter that treats all coordinates alike: there is a relation of its states that all operations keep. *)
Definition state_in_order (x : list N) : list N := picks n0 order (firstn (dim * n) x) ++ picks n0 order (skipn (dim * n) x).
Record filter_in_order (R : fstate FO -> fstate FO -> Prop) : Prop := {
  fo_create : forall p, sized p -> R (f_create FO p) (f_create FO (in_order p));
  fo_predict : forall f f', R f f' -> R (f_predict FO f) (f_predict FO f');
  fo_update : forall f f' z, R f f' -> length z = dim * n ->
    R (f_update FO f z (repeat n1 (dim * n))) (f_update FO f' (picks n0 order z) (repeat n1 (dim * n)));
  fo_x : forall f f', R f f' -> length (f_x FO f) = 2 * (dim * n) /\ f_x FO f' = state_in_order (f_x FO f);
  fo_set_x : forall f f' x, R f f' -> length x = 2 * (dim * n) -> R (f_set_x FO f x) (f_set_x FO f' (state_in_order x))
}.

(** The camera motion in the new order. *)
Definition ct_in_order (T T' : option (coord_transformation N)) : Prop :=
  match T, T' with
  | None, None => True
  | Some T, Some T' => forall p, sized p ->
      sized (ct_rel_to_abs T p) /\ ct_rel_to_abs T' (in_order p) = in_order (ct_rel_to_abs T p) /\
      sized (ct_abs_to_rel T p) /\ ct_abs_to_rel T' (in_order p) = in_order (ct_abs_to_rel T p)
  | _, _ => False
  end.
Definition input_in_order (x x' : input N) : Prop :=
  in_new x' = map (fun rd => (fst rd, det_in_order (snd rd))) (in_new x) /\ Forall (fun rd => det_unscored (snd rd)) (in_new x) /\
  in_dets x' = in_dets x /\ in_period x' = in_period x /\ ct_in_order (in_ct x) (in_ct x').
Record outcome_in_order (a a' : st FO * result (list nat)) : Prop := {
  eo_result : snd a' = snd a;
  eo_tracked : s_tracked (fst a') = s_tracked (fst a);
  eo_total : total_object_count (fst a') = total_object_count (fst a);
  eo_global : s_gcount (fst a') = s_gcount (fst a);
  eo_objects : forall i, tracked (fst a) i -> obj_in_order (s_store (fst a) i) (s_store (fst a') i);
  eo_detections : forall r, s_heap (fst a') r = det_in_order (s_heap (fst a) r)
}.
End S.

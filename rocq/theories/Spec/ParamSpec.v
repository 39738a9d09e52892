(** Vocabulary for C99: two trackers that differ in parameters and label names that must not matter. *)
From Coq Require Import ZArith List Bool Arith.
From Verif Require Import Model.Num Model.Base Model.Matching Model.Filter Model.Tracker Spec.CallSpec Spec.ExampleVideo Spec.UnitSpec.
Import ListNotations.

Section S.
Context {N : Num} {FO : filter_ops N}.
(** How the second program calls the labels of the first one. *)
Variable name : label -> label.

(** The same detection, up to the name of its label and its [age] (norfair writes the age). *)
Record same_det (d d' : detection N) : Prop := {
  sd_points : d_points d' = d_points d;
  sd_scores : d_scores d' = d_scores d;
  sd_label : d_label d' = name (d_label d);
  sd_absolute : d_absolute_points d' = d_absolute_points d;
  sd_data : d_data d' = d_data d
}.

(** The same object, up to the name of its label, its past detections, its point counters and the three parameters. *)
Record same_object (o o' : tobj FO) : Prop := {
  so_label : oc_label (o_conf o') = name (oc_label (o_conf o));
  so_initializing_id : oc_iid (o_conf o') = oc_iid (o_conf o);
  so_shape : oc_num_points (o_conf o') = oc_num_points (o_conf o) /\ oc_dim_points (o_conf o') = oc_dim_points (o_conf o);
  so_hit : o_hit o' = o_hit o;
  so_reid : o_reid o' = o_reid o;
  so_last_det : o_last_det o' = o_last_det o;
  so_age : o_age o' = o_age o;
  so_initializing : o_initializing o' = o_initializing o;
  so_id : o_id o' = o_id o;
  so_gid : o_gid o' = o_gid o;
  so_once : o_once o' = o_once o;
  so_last_distance : o_last_distance o' = o_last_distance o;
  so_min_distance : o_min_distance o' = o_min_distance o;
  so_filter : o_filter o' = o_filter o;
  so_estimate : estimate o' = estimate o;
  so_absolute : get_estimate o' true = get_estimate o true;
  so_velocity : estimate_velocity o' = estimate_velocity o
}.

(** What distance functions are given: nothing is known about the past detections. *)
Definition same_view (v v' : oview FO) : Prop := same_object (v_obj v) (v_obj v') /\ same_det (v_last v) (v_last v').
Definition same_cand (c c' : cview FO) : Prop :=
  match c, c' with VDet d, VDet d' => same_det d d' | VObj v, VObj v' => same_view v v' | _, _ => False end.
(** The second function gives what the first one gives: it does not look at the past detections, the point counters, the
    three parameters and the names of the labels. *)
Definition same_values (f f' : cview FO -> oview FO -> result (dval N)) : Prop :=
  forall c c' o o', same_cand c c' -> same_view o o' -> f' c' o' = f c o.

(** The two trackers; [past_detections_length], [pointwise_hit_counter_max] and [detection_threshold] are free. *)
Record same_tracker (c c' : tconf FO) : Prop := {
  st_distance : match tc_distance c, tc_distance c' with
                | ScalarDistance f, ScalarDistance f' => same_values f f'
                | VectorizedDistance f, VectorizedDistance f' => f' = f /\ forall l, name l = l
                | _, _ => False
                end;
  st_reid : match tc_reid_distance c, tc_reid_distance c' with
            | None, None => True
            | Some f, Some f' => same_values f f'
            | _, _ => False
            end;
  st_thresholds : tc_threshold c' = tc_threshold c /\ tc_reid_threshold c' = tc_reid_threshold c /\ tc_rnd c' = tc_rnd c;
  st_counters : tc_hit_counter_max c' = tc_hit_counter_max c /\ tc_delay c' = tc_delay c /\ tc_reid_max c' = tc_reid_max c
}.

(** The two values of [detection_threshold] count the same points of a detection as seen. *)
Definition same_points_seen (c c' : tconf FO) (d : detection N) : Prop :=
  match d_scores d with
  | None => True
  | Some sc => forall x, In x sc -> nltb (tc_det_thr c') x = nltb (tc_det_thr c) x
  end.

(** One call: the same new detections, the same list, period and transformation. *)
Definition same_input (x x' : input N) : Prop :=
  Forall2 (fun a a' => fst a' = fst a /\ same_det (snd a) (snd a')) (in_new x) (in_new x') /\
  in_dets x' = in_dets x /\ in_period x' = in_period x /\ in_ct x' = in_ct x.

(** A new detection does not replace one that the tracker was given before. *)
Definition no_replacement (ins : list (input N)) : Prop :=
  forall before x after y r d, ins = before ++ x :: after -> In (r, d) (in_new x) -> In y before -> ~ In r (in_dets y).

Record same_outcome (a a' : st FO * result (list nat)) : Prop := {
  sc_result : snd a' = snd a;
  sc_tracked : s_tracked (fst a') = s_tracked (fst a);
  sc_total : total_object_count (fst a') = total_object_count (fst a);
  sc_global : s_gcount (fst a') = s_gcount (fst a);
  sc_objects : forall i, tracked (fst a) i -> same_object (s_store (fst a) i) (s_store (fst a') i);
  sc_detections : forall r, same_det (s_heap (fst a) r) (s_heap (fst a') r)
}.
End S.

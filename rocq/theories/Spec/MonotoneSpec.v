(** Vocabulary for C100: two trackers whose distances are ordered in the same way. *)
From Coq Require Import ZArith Reals List Bool Arith.
From Verif Require Import Model.Num Model.Base Model.Matching Model.Filter Model.Tracker Spec.CallSpec Spec.ExampleVideo Spec.UnitSpec.
Import ListNotations.

Section S.
Context {N : Num} {FO : filter_ops N}.
(** How the second program measures a distance of the first one, and a distance of re-identification. *)
Variables dh dr : dval N -> dval N.

(** The same object, up to the two distances it remembers. *)
Record same_but_distances (o o' : tobj FO) : Prop := {
  sb_conf : o_conf o' = o_conf o;
  sb_hit : o_hit o' = o_hit o;
  sb_reid : o_reid o' = o_reid o;
  sb_last_det : o_last_det o' = o_last_det o;
  sb_age : o_age o' = o_age o;
  sb_initializing : o_initializing o' = o_initializing o;
  sb_id : o_id o' = o_id o;
  sb_gid : o_gid o' = o_gid o;
  sb_once : o_once o' = o_once o;
  sb_point_hits : o_point_hits o' = o_point_hits o;
  sb_past : o_past o' = o_past o;
  sb_filter : o_filter o' = o_filter o;
  sb_estimate : estimate o' = estimate o;
  sb_absolute : get_estimate o' true = get_estimate o true;
  sb_velocity : estimate_velocity o' = estimate_velocity o;
  sb_last_distance : o_last_distance o' = option_map dh (o_last_distance o);
  sb_min_distance : o_min_distance o' = option_map dh (o_min_distance o) \/ o_min_distance o' = option_map dr (o_min_distance o)
}.

(** What distance functions are given. *)
Definition view_but_distances (v v' : oview FO) : Prop :=
  same_but_distances (v_obj v) (v_obj v') /\ v_last v' = v_last v /\ v_past v' = v_past v.
Definition cand_but_distances (c c' : cview FO) : Prop :=
  match c, c' with VDet d, VDet d' => d' = d | VObj v, VObj v' => view_but_distances v v' | _, _ => False end.

(** What the second tracker stores for a pair (rounded by [rnd']) is [k] of what the first one stores. *)
Definition values_ordered (rnd rnd' k : dval N -> dval N) (f f' : cview FO -> oview FO -> result (dval N)) : Prop :=
  forall c c' o o', cand_but_distances c c' -> view_but_distances o o' ->
    result_map rnd' (f' c' o') = result_map (fun d => k (rnd d)) (f c o).
Definition matrices_ordered (rnd rnd' k : dval N -> dval N) (f f' : list (list N) -> list (list N) -> result (list (list (dval N)))) : Prop :=
  forall ps qs, result_map (map (map rnd')) (f' ps qs) = result_map (map (map (fun d => k (rnd d)))) (f ps qs).

Record ordered_alike (c c' : tconf FO) : Prop := {
  oa_distance : match tc_distance c, tc_distance c' with
                | ScalarDistance f, ScalarDistance f' => values_ordered (tc_rnd c) (tc_rnd c') dh f f'
                | VectorizedDistance f, VectorizedDistance f' => matrices_ordered (tc_rnd c) (tc_rnd c') dh f f'
                | _, _ => False
                end;
  oa_reid : match tc_reid_distance c, tc_reid_distance c' with
            | None, None => True
            | Some f, Some f' => values_ordered (tc_rnd c) (tc_rnd c') dr f f'
            | _, _ => False
            end;
  oa_threshold : tc_threshold c' = dh (tc_threshold c);
  oa_reid_threshold : tc_reid_threshold c' = dr (tc_reid_threshold c);
  oa_stops : can_stop (tc_rnd c) (tc_threshold c) /\ can_stop (tc_rnd c') (tc_threshold c') /\
             (tc_reid_distance c <> None -> can_stop (tc_rnd c) (tc_reid_threshold c) /\ can_stop (tc_rnd c') (tc_reid_threshold c'));
  oa_same : tc_hit_counter_max c' = tc_hit_counter_max c /\ tc_delay c' = tc_delay c /\ tc_pointwise_max c' = tc_pointwise_max c /\
            tc_det_thr c' = tc_det_thr c /\ tc_past_len c' = tc_past_len c /\ tc_reid_max c' = tc_reid_max c
}.

Record outcome_but_distances (a a' : st FO * result (list nat)) : Prop := {
  ob_result : snd a' = snd a;
  ob_tracked : s_tracked (fst a') = s_tracked (fst a);
  ob_total : total_object_count (fst a') = total_object_count (fst a);
  ob_global : s_gcount (fst a') = s_gcount (fst a);
  ob_objects : forall i, tracked (fst a) i -> same_but_distances (s_store (fst a) i) (s_store (fst a') i);
  ob_detections : forall r, s_heap (fst a') r = s_heap (fst a) r
}.
End S.

(** A distance function that does not look at the distances an object remembers. *)
Definition ignores_distances {N : Num} {FO : filter_ops N} (f : cview FO -> oview FO -> result (dval N)) : Prop :=
  forall dh dr c c' o o', cand_but_distances dh dr c c' -> view_but_distances dh dr o o' -> f c' o' = f c o.
(** Distances seen through a function of numbers. *)
Definition through (g : R -> R) (d : dval RNum) : dval RNum := match d with DFin x => @DFin RNum (g x) | v => v end.
Definition increasing (g : R -> R) : Prop := (forall x y, x < y -> g x < g y)%R.

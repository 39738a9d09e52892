(** norfair/tracker.py: [Detection], [TrackedObject], [_TrackedObjectFactory], [Tracker], and the
    [get_distances] methods of norfair/distances.py they call.

    Every method is a function from the state of one tracker (plus the shared heap of detections and
    the shared global id counter) to the new state and an outcome, so that the state left behind by a
    call that raised is available too. *)
From Coq Require Import ZArith Bool Arith String List.
From Verif Require Import Model.Num Model.Base Model.Matching Model.Filter.
Import ListNotations.

(** camera_motion.py:15-31 [CoordinatesTransformation]: user-extensible, a pair of functions. *)
Record coord_transformation (N : Num) := MkCT {
  ct_abs_to_rel : points N -> points N;
  ct_rel_to_abs : points N -> points N
}.
Arguments ct_abs_to_rel {N} _ _.
Arguments ct_rel_to_abs {N} _ _.
Arguments MkCT {N} _ _.

(** tracker.py:770-784 [Detection].  [d_data] stands for the payload fields [data]/[embedding]. *)
Record detection (N : Num) := MkDet {
  d_points : points N;
  d_scores : option (list N);
  d_label : label;
  d_absolute_points : points N;
  d_age : option Z;
  d_data : list N
}.
Arguments d_points {N} _.
Arguments d_scores {N} _.
Arguments d_label {N} _.
Arguments d_absolute_points {N} _.
Arguments d_age {N} _.
Arguments d_data {N} _.
Arguments MkDet {N} _ _ _ _ _ _.

(** [Detection(points, scores, data, label)] with valid points: tracker.py:778-784. *)
Definition new_detection {N : Num} (pts : points N) (scores : option (list N)) (data : list N)
    (lbl : label) : detection N :=
  MkDet pts scores lbl pts None data.

Definition d_set_age {N : Num} (a : Z) (d : detection N) : detection N :=
  MkDet (d_points d) (d_scores d) (d_label d) (d_absolute_points d) (Some a) (d_data d).
Definition d_set_abs {N : Num} (p : points N) (d : detection N) : detection N :=
  MkDet (d_points d) (d_scores d) (d_label d) p (d_age d) (d_data d).

(** tracker.py:786-792. *)
Definition det_update_ct {N : Num} (T : coord_transformation N) (d : detection N) : detection N :=
  d_set_abs (ct_rel_to_abs T (d_absolute_points d)) d.

Section Tracker.
Context {N : Num} {FO : filter_ops N}.

(** Attributes of a [TrackedObject] that are written only by [__init__] (tracker.py:490-535). *)
Record oconf := MkOconf {
  oc_iid : nat;                    (* initializing_id *)
  oc_num_points : nat;
  oc_dim_points : nat;
  oc_hit_counter_max : Z;
  oc_pointwise_max : Z;            (* max(pointwise_hit_counter_max, period) *)
  oc_delay : Z;                    (* initialization_delay *)
  oc_det_thr : N;                  (* detection_threshold *)
  oc_initial_period : Z;
  oc_reid_max : option Z;
  oc_past_len : nat;
  oc_label : label
}.

(** A [TrackedObject]; the remaining fields are its mutable attributes. *)
Record tobj := MkObj {
  o_conf : oconf;
  o_hit : Z;                       (* hit_counter *)
  o_reid : option Z;               (* reid_hit_counter *)
  o_last_distance : option (dval N);
  o_min_distance : option (dval N);(* current_min_distance *)
  o_last_det : nat;                (* last_detection (reference) *)
  o_age : Z;
  o_initializing : bool;
  o_id : option nat;
  o_gid : option nat;              (* global_id *)
  o_once : list bool;              (* detected_at_least_once_points *)
  o_point_hits : list Z;           (* point_hit_counter *)
  o_past : list nat;               (* past_detections (references) *)
  o_filter : fstate FO;
  o_abs_to_rel : option (points N -> points N)
}.

Definition set_hit v o := MkObj (o_conf o) v (o_reid o) (o_last_distance o) (o_min_distance o) (o_last_det o)
  (o_age o) (o_initializing o) (o_id o) (o_gid o) (o_once o) (o_point_hits o) (o_past o) (o_filter o) (o_abs_to_rel o).
Definition set_reid v o := MkObj (o_conf o) (o_hit o) v (o_last_distance o) (o_min_distance o) (o_last_det o)
  (o_age o) (o_initializing o) (o_id o) (o_gid o) (o_once o) (o_point_hits o) (o_past o) (o_filter o) (o_abs_to_rel o).
Definition set_last_distance v o := MkObj (o_conf o) (o_hit o) (o_reid o) v (o_min_distance o) (o_last_det o)
  (o_age o) (o_initializing o) (o_id o) (o_gid o) (o_once o) (o_point_hits o) (o_past o) (o_filter o) (o_abs_to_rel o).
Definition set_min_distance v o := MkObj (o_conf o) (o_hit o) (o_reid o) (o_last_distance o) v (o_last_det o)
  (o_age o) (o_initializing o) (o_id o) (o_gid o) (o_once o) (o_point_hits o) (o_past o) (o_filter o) (o_abs_to_rel o).
Definition set_last_det v o := MkObj (o_conf o) (o_hit o) (o_reid o) (o_last_distance o) (o_min_distance o) v
  (o_age o) (o_initializing o) (o_id o) (o_gid o) (o_once o) (o_point_hits o) (o_past o) (o_filter o) (o_abs_to_rel o).
Definition set_oage v o := MkObj (o_conf o) (o_hit o) (o_reid o) (o_last_distance o) (o_min_distance o) (o_last_det o)
  v (o_initializing o) (o_id o) (o_gid o) (o_once o) (o_point_hits o) (o_past o) (o_filter o) (o_abs_to_rel o).
Definition set_initializing v o := MkObj (o_conf o) (o_hit o) (o_reid o) (o_last_distance o) (o_min_distance o) (o_last_det o)
  (o_age o) v (o_id o) (o_gid o) (o_once o) (o_point_hits o) (o_past o) (o_filter o) (o_abs_to_rel o).
Definition set_ids i g o := MkObj (o_conf o) (o_hit o) (o_reid o) (o_last_distance o) (o_min_distance o) (o_last_det o)
  (o_age o) (o_initializing o) i g (o_once o) (o_point_hits o) (o_past o) (o_filter o) (o_abs_to_rel o).
Definition set_once v o := MkObj (o_conf o) (o_hit o) (o_reid o) (o_last_distance o) (o_min_distance o) (o_last_det o)
  (o_age o) (o_initializing o) (o_id o) (o_gid o) v (o_point_hits o) (o_past o) (o_filter o) (o_abs_to_rel o).
Definition set_point_hits v o := MkObj (o_conf o) (o_hit o) (o_reid o) (o_last_distance o) (o_min_distance o) (o_last_det o)
  (o_age o) (o_initializing o) (o_id o) (o_gid o) (o_once o) v (o_past o) (o_filter o) (o_abs_to_rel o).
Definition set_past v o := MkObj (o_conf o) (o_hit o) (o_reid o) (o_last_distance o) (o_min_distance o) (o_last_det o)
  (o_age o) (o_initializing o) (o_id o) (o_gid o) (o_once o) (o_point_hits o) v (o_filter o) (o_abs_to_rel o).
Definition set_filter v o := MkObj (o_conf o) (o_hit o) (o_reid o) (o_last_distance o) (o_min_distance o) (o_last_det o)
  (o_age o) (o_initializing o) (o_id o) (o_gid o) (o_once o) (o_point_hits o) (o_past o) v (o_abs_to_rel o).
Definition set_abs_to_rel v o := MkObj (o_conf o) (o_hit o) (o_reid o) (o_last_distance o) (o_min_distance o) (o_last_det o)
  (o_age o) (o_initializing o) (o_id o) (o_gid o) (o_once o) (o_point_hits o) (o_past o) (o_filter o) v.

(** What a call of one tracker can see and change: the shared heap of detections and
    [_TrackedObjectFactory.global_count] (tracker.py:389), and the tracker's own objects
    ([s_store], addressed by initializing_id), [tracked_objects], and the factory's [count] and
    [initializing_count] (tracker.py:391-393). *)
Record st := MkSt {
  s_heap : nat -> detection N;
  s_gcount : nat;
  s_store : nat -> tobj;
  s_tracked : list nat;
  s_count : nat;
  s_icount : nat
}.
Definition s_set_heap v s := MkSt v (s_gcount s) (s_store s) (s_tracked s) (s_count s) (s_icount s).
Definition s_set_store v s := MkSt (s_heap s) (s_gcount s) v (s_tracked s) (s_count s) (s_icount s).
Definition s_set_tracked v s := MkSt (s_heap s) (s_gcount s) (s_store s) v (s_count s) (s_icount s).

(** [self.attr = ...] on the object with reference [i]. *)
Definition mod_obj (i : nat) (f : tobj -> tobj) (s : st) : st :=
  s_set_store (upd (s_store s) i (f (s_store s i))) s.
Definition mod_det (r : nat) (f : detection N -> detection N) (s : st) : st :=
  s_set_heap (upd (s_heap s) r (f (s_heap s r))) s.

(** tracker.py:549-555. *)
Definition hit_counter_is_positive (o : tobj) : bool := (0 <=? o_hit o)%Z.
Definition reid_hit_counter_is_positive (o : tobj) : bool :=
  match o_reid o with None => true | Some r => (0 <=? r)%Z end.

(** tracker.py:495 et al.: [dim_z]. *)
Definition dim_z (o : tobj) : nat := oc_dim_points (o_conf o) * oc_num_points (o_conf o).

(** tracker.py:579-609 [get_estimate]. *)
Definition get_estimate (o : tobj) (absolute : bool) : result (points N) :=
  let positions := reshape_rows (oc_dim_points (o_conf o)) (firstn (dim_z o) (f_x FO (o_filter o))) in
  match o_abs_to_rel o with
  | None => if negb absolute then Ret positions else Raise EValueError
  | Some f => if absolute then Ret positions else Ret (f positions)
  end.
(** tracker.py:568-577 [estimate] (never raises). *)
Definition estimate (o : tobj) : points N :=
  match get_estimate o false with Ret p => p | Raise _ => [] end.
(** tracker.py:557-566. *)
Definition estimate_velocity (o : tobj) : points N :=
  reshape_rows (oc_dim_points (o_conf o)) (skipn (dim_z o) (f_x FO (o_filter o))).

(** tracker.py:611-613. *)
Definition live_points (o : tobj) : list bool := map (fun c => (0 <? c)%Z) (o_point_hits o).

(** tracker.py:537-547 [tracker_step]. *)
Definition tracker_step (o : tobj) : tobj :=
  let reid' := match o_reid o with
               | None => if (o_hit o <=? 0)%Z then oc_reid_max (o_conf o) else None
               | Some r => Some (r - 1)%Z
               end in
  let o := set_reid reid' o in
  let o := set_hit (o_hit o - 1)%Z o in
  let o := set_point_hits (map (fun c => (c - 1)%Z) (o_point_hits o)) o in
  let o := set_oage (o_age o + 1)%Z o in
  set_filter (f_predict FO (o_filter o)) o.

(** tracker.py:733-737. *)
Definition obj_update_ct (ct : option (coord_transformation N)) (o : tobj) : tobj :=
  match ct with None => o | Some T => set_abs_to_rel (Some (ct_abs_to_rel T)) o end.

(** tracker.py:427-430 [get_ids] and 739-740 [_acquire_ids]. *)
Definition acquire_ids (i : nat) (s : st) : st :=
  let count := S (s_count s) in
  let gcount := S (s_gcount s) in
  mod_obj i (set_ids (Some count) (Some gcount))
    (MkSt (s_heap s) gcount (s_store s) (s_tracked s) count (s_icount s)).

(** tracker.py:700-715 [_conditionally_add_to_past_detections]. *)
Definition cond_add_past (i r : nat) (s : st) : st * result unit :=
  let o := s_store s i in
  let len := oc_past_len (o_conf o) in
  if Nat.eqb len 0 then (s, Ret tt)
  else if Nat.ltb (List.length (o_past o)) len then
    (mod_obj i (fun o => set_past (o_past o ++ [r]) o) (mod_det r (d_set_age (o_age o)) s), Ret tt)
  else
    match o_past o with
    | [] => (s, Raise EIndexError)                           (* self.past_detections[0] *)
    | first :: rest =>
      match d_age (s_heap s first) with
      | None => (s, Raise ETypeError)                        (* None * int *)
      | Some a =>
        if (a * Z.of_nat len <=? o_age o)%Z then
          (mod_obj i (set_past (rest ++ [r])) (mod_det r (d_set_age (o_age o)) s), Ret tt)
        else (s, Ret tt)
      end
    end.

(** [detection.scores > self.detection_threshold], or all ones when there are no scores
    (tracker.py:513-518, 638-640, 649). *)
Definition over_threshold (thr : N) (n : nat) (d : detection N) : list bool :=
  match d_scores d with
  | None => repeat true n
  | Some sc => map (fun x => nltb thr x) sc
  end.

(** tracker.py:647-655: point counters. *)
Definition point_hits_update (period pw_max : Z) (mask : list bool) (hits : list Z) : list Z :=
  let hits := map2 (fun (m : bool) c => if m then (c + 2 * period)%Z else c) mask hits in
  let hits := map (fun c => if (pw_max <=? c)%Z then pw_max else c) hits in
  map (fun c => if (c <? 0)%Z then 0%Z else c) hits.

(** tracker.py:662-682: writes to the filter state after [filter.update]. *)
Definition first_detection_mask (dim : nat) (now once : list bool) : list bool :=
  map2 andb (tile dim now) (map negb (repeat_each dim once)).
Definition reset_first_detected (dim dimz : nat) (now once : list bool) (z x : list N) : list N :=
  let pos := mask_assign (first_detection_mask dim now once) z (firstn dimz x) in
  let vel := mask_fill (map negb (repeat_each dim once)) n0 (skipn dimz x) in
  pos ++ vel.

(** tracker.py:615-685 [hit].
    SIMPLIFICATION: numpy broadcasting of length-1 arrays (a detection with one score for an object
    with several points) is treated like any other shape mismatch, i.e. as an exception. *)
Definition hit (i r : nat) (period : Z) (s : st) : st * result unit :=
  match cond_add_past i r s with
  | (s, Raise e) => (s, Raise e)
  | (s, Ret _) =>
    let s := mod_obj i (set_last_det r) s in
    let s := mod_obj i (fun o => set_hit (Z.min (o_hit o + 2 * period) (oc_hit_counter_max (o_conf o))) o) s in
    let o := s_store s i in
    let s := if o_initializing o && (oc_delay (o_conf o) <? o_hit o)%Z
             then acquire_ids i (mod_obj i (set_initializing false) s) else s in
    let o := s_store s i in
    let d := s_heap s r in
    let dim := oc_dim_points (o_conf o) in
    let mask := over_threshold (oc_det_thr (o_conf o)) (oc_num_points (o_conf o)) d in
    let counted := match d_scores d with
                   | Some _ => mask                          (* point_hit_counter[mask] += ... *)
                   | None => repeat true (List.length (o_point_hits o))
                   end in
    if negb (Nat.eqb (List.length counted) (List.length (o_point_hits o))) then (s, Raise EIndexError)
    else
    let s := mod_obj i (fun o => set_point_hits
               (point_hits_update period (oc_pointwise_max (o_conf o)) counted (o_point_hits o)) o) s in
    let z := flatten (d_absolute_points d) in
    if negb (Nat.eqb (List.length z) (dim_z o)) || negb (Nat.eqb (List.length mask) (oc_num_points (o_conf o))) then
      (s, Raise EValueError)                                 (* inside filter.update *)
    else
    let diagonal := repeat_each dim (map (fun m : bool => if m then n1 else n0) mask) in
    let s := mod_obj i (fun o => set_filter (f_update FO (o_filter o) z diagonal) o) s in
    if negb (Nat.eqb (List.length (o_once o)) (List.length mask)) then
      (s, Raise EValueError)                                 (* np.logical_and *)
    else
    let s := mod_obj i (fun o => set_filter
               (f_set_x FO (o_filter o)
                  (reset_first_detected dim (dim_z o) mask (o_once o) z (f_x FO (o_filter o)))) o) s in
    let s := mod_obj i (fun o => set_once (map2 orb (o_once o) mask) o) s in
    (s, Ret tt)
  end.

(** tracker.py:730-731, the loop at the end of [merge]. *)
Fixpoint add_pasts (i : nat) (rs : list nat) (s : st) : st * result unit :=
  match rs with
  | [] => (s, Ret tt)
  | r :: rs' =>
    match cond_add_past i r s with
    | (s, Ret _) => add_pasts i rs' s
    | (s, Raise e) => (s, Raise e)
    end
  end.

(** tracker.py:717-731 [merge].  SIMPLIFICATION: the survivor's point counters, masks and filter are
    copies of the candidate's, not aliases; the candidate is removed from the tracker right after, so
    no norfair code writes to it again. *)
Definition merge (i j : nat) (s : st) : st * result unit :=
  let c := s_store s j in
  let s := mod_obj i (fun o =>
             set_filter (o_filter c)
            (set_once (o_once c)
            (set_last_det (o_last_det c)
            (set_min_distance (o_min_distance c)
            (set_last_distance (o_last_distance c)
            (set_point_hits (o_point_hits c)
            (set_hit (oc_initial_period (o_conf o) * 2)%Z
            (set_reid None o)))))))) s in
  add_pasts i (o_past c) s.

(* ------------------------------------------------------------------------------------------ *)
(** ** Distances (norfair/distances.py:66-207) *)

Inductive cand := CDet : nat -> cand | CObj : nat -> cand.

(** What a distance function can read through its arguments: a detection; an object, its
    last_detection and its past_detections. *)
Record oview := MkOView { v_obj : tobj; v_last : detection N; v_past : list (detection N) }.
Inductive cview := VDet : detection N -> cview | VObj : oview -> cview.

Definition view_obj (s : st) (i : nat) : oview :=
  let o := s_store s i in
  MkOView o (s_heap s (o_last_det o)) (map (s_heap s) (o_past o)).
Definition view_cand (s : st) (c : cand) : cview :=
  match c with CDet r => VDet (s_heap s r) | CObj i => VObj (view_obj s i) end.
Definition cand_label (s : st) (c : cand) : label :=
  match c with CDet r => d_label (s_heap s r) | CObj i => oc_label (o_conf (s_store s i)) end.
Definition obj_label (s : st) (i : nat) : label := oc_label (o_conf (s_store s i)).

(** User supplied distance: a scalar function of (candidate, object), which may raise, or a
    vectorized function of two stacks of flattened arrays. *)
Inductive distance :=
| ScalarDistance : (cview -> oview -> result (dval N)) -> distance
| VectorizedDistance : (list (list N) -> list (list N) -> result (list (list (dval N)))) -> distance.

Fixpoint map_result {A B} (f : A -> result B) (l : list A) : result (list B) :=
  match l with
  | [] => Ret []
  | a :: l' => match f a with
               | Raise e => Raise e
               | Ret b => match map_result f l' with Raise e => Raise e | Ret bs => Ret (b :: bs) end
               end
  end.

(** distances.py:87-102 [ScalarDistance.get_distances]; [rnd] is the conversion to float32 when a
    value is stored in the matrix. *)
Definition scalar_distances (rnd : dval N -> dval N) (f : cview -> oview -> result (dval N))
    (s : st) (objects : list nat) (candidates : list cand) : result (matrix N) :=
  map_result (fun c => map_result (fun i =>
      if negb (label_eqb (cand_label s c) (obj_label s i)) then Ret DPInf
      else match f (view_cand s c) (view_obj s i) with
           | Ret d => Ret (rnd d)
           | Raise e => Raise e
           end) objects) candidates.

(** [str] order and [np.unique]: sorted without repetition (distances.py:158-160). *)
Fixpoint insert_uniq (x : string) (l : list string) : list string :=
  match l with
  | [] => [x]
  | y :: l' => match String.compare x y with
               | Lt => x :: y :: l'
               | Eq => y :: l'
               | Gt => y :: insert_uniq x l'
               end
  end.
Definition unique (l : list string) : list string := fold_right insert_uniq [] l.
Definition intersect1d (a b : list string) : list string :=
  filter (fun x => existsb (String.eqb x) b) a.

(** [matrix[np.ix_(cand_mask, obj_mask)] = D] (distances.py:182). *)
Fixpoint assign_row (mask : list bool) (drow row : list (dval N)) : list (dval N) :=
  match mask, row with
  | true :: mask', x :: row' => match drow with
                                | [] => x :: assign_row mask' [] row'
                                | v :: drow' => v :: assign_row mask' drow' row'
                                end
  | false :: mask', x :: row' => x :: assign_row mask' drow row'
  | _, _ => row
  end.
Fixpoint assign_rows (cand_mask obj_mask : list bool) (D M : matrix N) : matrix N :=
  match cand_mask, M with
  | true :: cm', r :: M' => match D with
                            | [] => r :: assign_rows cm' obj_mask [] M'
                            | dr :: D' => assign_row obj_mask dr r :: assign_rows cm' obj_mask D' M'
                            end
  | false :: cm', r :: M' => r :: assign_rows cm' obj_mask D M'
  | _, _ => M
  end.

(** [np.stack]: all arrays must have the same length. *)
Definition stack (l : list (list N)) : result (list (list N)) :=
  match l with
  | [] => Raise EValueError
  | v :: _ => if forallb (fun w => Nat.eqb (List.length w) (List.length v)) l then Ret l else Raise EValueError
  end.

(** The vector of a candidate, distances.py:172-177. *)
Definition cand_vector (s : st) (c : cand) : list N :=
  match c with
  | CDet r => flatten (d_points (s_heap s r))
  | CObj i => flatten (estimate (s_store s i))
  end.

(** distances.py:158-184, one iteration per label.
    SIMPLIFICATION: numpy broadcasting of a result with the wrong shape is treated as an exception. *)
Fixpoint vectorized_loop (rnd : dval N -> dval N)
    (f : list (list N) -> list (list N) -> result (list (list (dval N))))
    (s : st) (objects : list nat) (candidates : list cand) (labels : list string) (M : matrix N)
  : result (matrix N) :=
  match labels with
  | [] => Ret M
  | l :: labels' =>
    let obj_mask := map (fun i => String.eqb (label_str (obj_label s i)) l) objects in
    let cand_mask := map (fun c => String.eqb (label_str (cand_label s c)) l) candidates in
    let objs := filter (fun i => String.eqb (label_str (obj_label s i)) l) objects in
    let cands := filter (fun c => String.eqb (label_str (cand_label s c)) l) candidates in
    match stack (map (fun i => flatten (estimate (s_store s i))) objs) with
    | Raise e => Raise e
    | Ret stacked_objects =>
      match stack (map (cand_vector s) cands) with
      | Raise e => Raise e
      | Ret stacked_candidates =>
        match f stacked_candidates stacked_objects with
        | Raise e => Raise e
        | Ret D =>
          if Nat.eqb (List.length D) (List.length cands)
             && forallb (fun r => Nat.eqb (List.length r) (List.length objs)) D
          then vectorized_loop rnd f s objects candidates labels'
                 (assign_rows cand_mask obj_mask (map (map rnd) D) M)
          else Raise EValueError
        end
      end
    end
  end.

(** distances.py:146-186 [VectorizedDistance.get_distances]. *)
Definition vectorized_distances (rnd : dval N -> dval N)
    (f : list (list N) -> list (list N) -> result (list (list (dval N))))
    (s : st) (objects : list nat) (candidates : list cand) : result (matrix N) :=
  let M := map (fun _ => map (fun _ => DPInf) objects) candidates in
  match objects, candidates with
  | [], _ => Ret M
  | _, [] => Ret M
  | _, _ =>
    let labels := intersect1d (unique (map (fun i => label_str (obj_label s i)) objects))
                              (unique (map (fun c => label_str (cand_label s c)) candidates)) in
    vectorized_loop rnd f s objects candidates labels M
  end.

Definition get_distances (rnd : dval N -> dval N) (d : distance) (s : st) (objects : list nat)
    (candidates : list cand) : result (matrix N) :=
  match d with
  | ScalarDistance f => scalar_distances rnd f s objects candidates
  | VectorizedDistance f => vectorized_distances rnd f s objects candidates
  end.

(* ------------------------------------------------------------------------------------------ *)
(** ** Tracker *)

(** The attributes set by [Tracker.__init__] (tracker.py:97-142) that never change.  [tc_rnd] is the
    float32 conversion. *)
Record tconf := MkTconf {
  tc_distance : distance;
  tc_threshold : dval N;
  tc_hit_counter_max : Z;
  tc_delay : Z;
  tc_pointwise_max : Z;
  tc_det_thr : N;
  tc_past_len : nat;
  tc_reid_distance : option (cview -> oview -> result (dval N));
  tc_reid_threshold : dval N;
  tc_reid_max : option Z;
  tc_rnd : dval N -> dval N
}.

(** Column minimum [distance_matrix.min(axis=0)] (tracker.py:303). *)
Definition col_min (M : matrix N) (j : nat) : dval N :=
  match map (fun r => nth j r DNaN) M with [] => DNaN | x :: l => list_min x l end.

(** tracker.py:302-306. *)
Fixpoint set_min_distances (thr : dval N) (M : matrix N) (j : nat) (objects : list nat) (s : st) : st :=
  match objects with
  | [] => s
  | i :: objects' =>
    let m := col_min M j in
    set_min_distances thr M (S j) objects'
      (mod_obj i (set_min_distance (if dltb m thr then Some m else None)) s)
  end.

(** [[d for i, d in enumerate(l) if i not in idxs]]. *)
Fixpoint not_in_idxs {A} (idxs : list nat) (k : nat) (l : list A) : list A :=
  match l with
  | [] => []
  | a :: l' => if existsb (Nat.eqb k) idxs then not_in_idxs idxs (S k) l' else a :: not_in_idxs idxs (S k) l'
  end.

(** [list.remove]: first occurrence. *)
Fixpoint remove_first (x : nat) (l : list nat) : list nat :=
  match l with
  | [] => []
  | y :: l' => if Nat.eqb y x then l' else y :: remove_first x l'
  end.

(** tracker.py:320-340: the loop over matched pairs.  Accumulators: unmatched candidates, matched
    objects, unmatched objects. *)
Fixpoint apply_matches (thr : dval N) (M : matrix N) (objects : list nat) (candidates : list cand)
    (period : Z) (pairs : list (nat * nat)) (uc : list cand) (mo uo : list nat) (s : st)
  : st * result (list cand * list nat * list nat) :=
  match pairs with
  | [] => (s, Ret (uc, mo, uo))
  | (ci, oi) :: pairs' =>
    let match_distance := entry M ci oi in
    match nth_error candidates ci, nth_error objects oi with
    | Some c, Some i =>
      if dltb match_distance thr then
        match c with
        | CDet r =>
          match hit i r period s with
          | (s, Raise e) => (s, Raise e)
          | (s, Ret _) =>
            let s := mod_obj i (set_last_distance (Some match_distance)) s in
            apply_matches thr M objects candidates period pairs' uc (mo ++ [i]) uo s
          end
        | CObj j =>
          match merge i j s with
          | (s, Raise e) => (s, Raise e)
          | (s, Ret _) =>
            if existsb (Nat.eqb j) (s_tracked s) then
              apply_matches thr M objects candidates period pairs' uc mo uo
                (s_set_tracked (remove_first j (s_tracked s)) s)
            else (s, Raise EValueError)
          end
        end
      else apply_matches thr M objects candidates period pairs' (uc ++ [c]) mo (uo ++ [i]) s
    | _, _ => (s, Raise EIndexError)
    end
  end.

(** tracker.py:286-350 [_update_objects_in_place]; [None] candidates and an empty list take the same
    branch, so candidates are a list. *)
Definition update_objects_in_place (rnd : dval N -> dval N) (dist : distance) (thr : dval N)
    (objects : list nat) (candidates : list cand) (period : Z) (s : st)
  : st * result (list cand * list nat * list nat) :=
  match candidates with
  | [] => (s, Ret ([], [], objects))
  | _ :: _ =>
    match get_distances rnd dist s objects candidates with
    | Raise e => (s, Raise e)
    | Ret M =>
      if existsb dis_nan (List.concat M) then (s, Raise EValueError)
      else
      let s := if existsb dtruth (List.concat M) then set_min_distances thr M 0 objects s else s in
      match match_dets_and_objs rnd thr M with
      | None => (s, Raise ENonTermination)
      | Some ([], _) => (s, Ret (candidates, [], objects))
      | Some (cis, ois) =>
        apply_matches thr M objects candidates period (combine cis ois)
          (not_in_idxs cis 0 candidates) [] (not_in_idxs ois 0 objects) s
      end
    end
  end.

(** tracker.py:472-535 [TrackedObject.__init__] called through 395-421 [create]. *)
Definition create_object (c : tconf) (r : nat) (period : Z) (ct : option (coord_transformation N))
    (s : st) : st :=
  let d := s_heap s r in
  let iid := S (s_icount s) in
  let num_points := List.length (d_absolute_points d) in
  let dim_points := match d_absolute_points d with [] => 0 | p :: _ => List.length p end in
  let initializing := (period <=? tc_delay c)%Z in
  let once := over_threshold (tc_det_thr c) num_points d in
  let conf := MkOconf iid num_points dim_points (tc_hit_counter_max c)
                (Z.max (tc_pointwise_max c) period) (tc_delay c) (tc_det_thr c) period
                (tc_reid_max c) (tc_past_len c) (d_label d) in
  let o := MkObj conf period None None None r 0%Z initializing None None once
             (map (fun b : bool => if b then 1%Z else 0%Z) once)
             (if Nat.ltb 0 (tc_past_len c) then [r] else [])
             (f_create FO (d_absolute_points d))
             (match ct with None => None | Some T => Some (ct_abs_to_rel T) end) in
  let s := MkSt (s_heap s) (s_gcount s) (upd (s_store s) iid o) (s_tracked s) (s_count s) iid in
  let s := if initializing then s else acquire_ids iid s in
  let s := mod_det r (d_set_age 0%Z) s in
  s_set_tracked (s_tracked s ++ [iid]) s.

(** tracker.py:243-258. *)
Fixpoint create_objects (c : tconf) (cands : list cand) (period : Z)
    (ct : option (coord_transformation N)) (s : st) : st * result unit :=
  match cands with
  | [] => (s, Ret tt)
  | CDet r :: cands' => create_objects c cands' period ct (create_object c r period ct s)
  | CObj _ :: _ => (s, Raise EValueError)                    (* tracker.py:486-489 *)
  end.

(** tracker.py:179-181. *)
Fixpoint update_dets_ct (T : coord_transformation N) (dets : list nat) (s : st) : st :=
  match dets with
  | [] => s
  | r :: dets' => update_dets_ct T dets' (mod_det r (det_update_ct T) s)
  end.

(** tracker.py:203-205. *)
Fixpoint step_objects (ct : option (coord_transformation N)) (objs : list nat) (s : st) : st :=
  match objs with
  | [] => s
  | i :: objs' => step_objects ct objs' (mod_obj i (fun o => obj_update_ct ct (tracker_step o)) s)
  end.

(** tracker.py:272-284. *)
Definition is_active (o : tobj) : bool := negb (o_initializing o) && hit_counter_is_positive o.
Definition get_active_objects (s : st) : list nat := filter (fun i => is_active (s_store s i)) (s_tracked s).

(** tracker.py:183-200: (tracked_objects, alive_objects, dead_objects) after pruning. *)
Definition prune (c : tconf) (s : st) : list nat * list nat * list nat :=
  match tc_reid_max c with
  | None =>
    let tracked := filter (fun i => hit_counter_is_positive (s_store s i)) (s_tracked s) in
    (tracked, tracked, [])
  | Some _ =>
    let tracked := filter (fun i => reid_hit_counter_is_positive (s_store s i)) (s_tracked s) in
    (tracked,
     filter (fun i => hit_counter_is_positive (s_store s i)) tracked,
     filter (fun i => negb (hit_counter_is_positive (s_store s i))) tracked)
  end.

(** tracker.py:233-241: match unmatched initialized and dead objects with the initializing objects
    that were matched in this call. *)
Definition reid_phase (c : tconf) (objects matched_not_init : list nat) (period : Z) (s : st) : st * result unit :=
  match tc_reid_distance c with
  | None => (s, Ret tt)
  | Some f =>
    match update_objects_in_place (tc_rnd c) (ScalarDistance f) (tc_reid_threshold c)
            objects (map CObj matched_not_init) period s with
    | (s, Raise e) => (s, Raise e)
    | (s, Ret _) => (s, Ret tt)
    end
  end.

(** tracker.py:207-260: the three association phases and the creation of new objects. *)
Definition associate (c : tconf) (alive dead : list nat) (dets : list nat) (period : Z)
    (ct : option (coord_transformation N)) (s : st) : st * result (list nat) :=
  match update_objects_in_place (tc_rnd c) (tc_distance c) (tc_threshold c)
          (filter (fun i => negb (o_initializing (s_store s i))) alive) (map CDet dets) period s with
  | (s, Raise e) => (s, Raise e)
  | (s, Ret (unmatched, _, unmatched_init)) =>
    match update_objects_in_place (tc_rnd c) (tc_distance c) (tc_threshold c)
            (filter (fun i => o_initializing (s_store s i)) alive) unmatched period s with
    | (s, Raise e) => (s, Raise e)
    | (s, Ret (unmatched, matched_not_init, _)) =>
      match reid_phase c (unmatched_init ++ dead) matched_not_init period s with
      | (s, Raise e) => (s, Raise e)
      | (s, Ret _) =>
        match create_objects c unmatched period ct s with
        | (s, Raise e) => (s, Raise e)
        | (s, Ret _) => (s, Ret (get_active_objects s))
        end
      end
    end
  end.

(** tracker.py:179-205 before the association: (alive, dead) objects and the state after every kept
    object made its step. *)
Definition begin_update (c : tconf) (dets : list nat) (ct : option (coord_transformation N)) (s : st)
  : list nat * list nat * st :=
  let s := match ct with None => s | Some T => update_dets_ct T dets s end in
  let '(tracked, alive, dead) := prune c s in
  (alive, dead, step_objects ct tracked (s_set_tracked tracked s)).

(** tracker.py:144-260 [Tracker.update]. *)
Definition update (c : tconf) (detections : option (list nat)) (period : Z)
    (ct : option (coord_transformation N)) (s : st) : st * result (list nat) :=
  match ct, detections with
  | Some _, None => (s, Raise ETypeError)                    (* for det in None *)
  | _, _ =>
    let dets := match detections with None => [] | Some l => l end in
    let '(alive, dead, s) := begin_update c dets ct s in
    associate c alive dead dets period ct s
  end.

(** tracker.py:262-270. *)
Definition current_object_count (s : st) : nat := List.length (get_active_objects s).
Definition total_object_count (s : st) : nat := s_count s.

(** Constructor arguments of tracker.py:81-96.  The distance argument is a name resolved by the
    caller's table ([DName]), a callable, or any other Python value. *)
Inductive dist_arg :=
| DName : string -> dist_arg
| DCallable : (cview -> oview -> result (dval N)) -> dist_arg
| DOther : dist_arg.
Record targs := MkTargs {
  a_distance : dist_arg;
  a_threshold : dval N;
  a_hit_counter_max : Z;
  a_delay : option Z;
  a_pointwise_max : Z;
  a_det_thr : N;
  a_past_len : Z;
  a_reid_distance : option (cview -> oview -> result (dval N));
  a_reid_threshold : dval N;
  a_reid_max : option Z
}.

(** tracker.py:97-142 [Tracker.__init__].  [by_name] is [get_distance_by_name]; [int(x / 2)] is
    truncated division (exact for |hit_counter_max| < 2^53). *)
Definition tracker_init (rnd : dval N -> dval N) (by_name : string -> result distance) (a : targs) : result tconf :=
  match (match a_distance a with
         | DName n => by_name n
         | DCallable f => Ret (ScalarDistance f)
         | DOther => Raise EValueError
         end) with
  | Raise e => Raise e
  | Ret d =>
    if (a_past_len a <? 0)%Z then Raise EValueError
    else
    match (match a_delay a with
           | None => Ret (Z.quot (a_hit_counter_max a) 2)
           | Some v => if ((v <? 0) || (a_hit_counter_max a <=? v))%Z then Raise EValueError else Ret v
           end) with
    | Raise e => Raise e
    | Ret delay =>
      Ret (MkTconf d (a_threshold a) (a_hit_counter_max a) delay (a_pointwise_max a) (a_det_thr a)
             (Z.to_nat (a_past_len a)) (a_reid_distance a) (a_reid_threshold a) (a_reid_max a) rnd)
    end
  end.

(* ------------------------------------------------------------------------------------------ *)
(** ** A process with any number of trackers *)

(** Private state of one tracker. *)
Record tpriv := MkPriv { p_store : nat -> tobj; p_tracked : list nat; p_count : nat; p_icount : nat }.
Record world := MkWorld {
  w_heap : nat -> detection N;
  w_gcount : nat;
  w_trackers : nat -> tpriv
}.
Definition focus (w : world) (k : nat) : st :=
  let p := w_trackers w k in
  MkSt (w_heap w) (w_gcount w) (p_store p) (p_tracked p) (p_count p) (p_icount p).
Definition unfocus (w : world) (k : nat) (s : st) : world :=
  MkWorld (s_heap s) (s_gcount s)
    (upd (w_trackers w) k (MkPriv (s_store s) (s_tracked s) (s_count s) (s_icount s))).

(** One step of the user's program: create a detection (or overwrite the attributes of an existing
    one), or call [update] on a tracker. *)
Inductive op :=
| OpDet : nat -> detection N -> op
| OpUpdate : nat -> option (list nat) -> Z -> option (coord_transformation N) -> op.

Definition exec (conf : nat -> tconf) (w : world) (o : op) : world * result (list nat) :=
  match o with
  | OpDet r d => (MkWorld (upd (w_heap w) r d) (w_gcount w) (w_trackers w), Ret [])
  | OpUpdate k dets period ct =>
    let (s, out) := update (conf k) dets period ct (focus w k) in (unfocus w k s, out)
  end.
Fixpoint run (conf : nat -> tconf) (w : world) (ops : list op) : world :=
  match ops with
  | [] => w
  | o :: ops' => run conf (fst (exec conf w o)) ops'
  end.

(** tracker.py:97, 389, 391-393: empty trackers, counters at zero; the contents of the heap and of the
    unused store slots are arbitrary. *)
Definition init_world (h : nat -> detection N) (dummy : tobj) : world :=
  MkWorld h 0 (fun _ => MkPriv (fun _ => dummy) [] 0 0).

End Tracker.

Arguments tobj {N} FO.
Arguments st {N} FO.
Arguments tconf {N} FO.
Arguments distance {N} FO.
Arguments oconf : clear implicits.
Arguments cview {N} FO.
Arguments oview {N} FO.
Arguments world {N} FO.
Arguments tpriv {N} FO.
Arguments op : clear implicits.
Arguments targs {N} FO.

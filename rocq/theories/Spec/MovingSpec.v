(** Vocabulary for C44: the same scene tracked in fixed coordinates and through a translating camera. *)
From Coq Require Import ZArith List Arith.
From Verif Require Import Model.Num Model.Base Model.Filter Model.Tracker Model.CameraMotion Spec.CallSpec Spec.ExampleVideo.
Import ListNotations.

Section S.
Context {N : Num} {FO : filter_ops N}.
Notation st := (st FO).

(** Every point displaced by [v]. *)
Definition moved (v : list N) (p : points N) : points N := map (fun row => map2 nadd row v) p.
(** An array reshaped to (-1, len(v)). *)
Definition fits (v : list N) (p : points N) : Prop := p = reshape_rows (length v) (flatten p).

(** One call of update: fresh detections in fixed coordinates, the period, and the position of the camera. *)
Record shot := MkShot { sh_new : list (nat * detection N); sh_period : Z; sh_offset : list N }.
Definition unseen (d : detection N) : Prop := d = new_detection (d_points d) (d_scores d) (d_data d) (d_label d).
(** [dim] coordinates per point; the detections of a call are distinct, fresh Detection objects. *)
Definition good_shot (dim : nat) (x : shot) : Prop :=
  length (sh_offset x) = dim /\ NoDup (map fst (sh_new x)) /\
  Forall (fun rd => unseen (snd rd) /\ Forall (fun row => length row = dim) (d_points (snd rd))) (sh_new x).

(** The detection as the camera at [v] sees it. *)
Definition filmed (v : list N) (d : detection N) : detection N :=
  new_detection (moved v (d_points d)) (d_scores d) (d_data d) (d_label d).

Definition fixed_call (c : tconf FO) (s : st) (x : shot) : st * result (list nat) :=
  update c (Some (map fst (sh_new x))) (sh_period x) None (meanwhile s (put (s_heap s) (sh_new x)) (s_gcount s)).
Definition moving_call (c : tconf FO) (s : st) (x : shot) : st * result (list nat) :=
  update c (Some (map fst (sh_new x))) (sh_period x) (Some (translation (sh_offset x)))
    (meanwhile s (put (s_heap s) (map (fun rd => (fst rd, filmed (sh_offset x) (snd rd))) (sh_new x))) (s_gcount s)).
(** State and result after each call; a program may go on after an exception. *)
Fixpoint recording (f : st -> shot -> st * result (list nat)) (s : st) (xs : list shot) : list (st * result (list nat)) :=
  match xs with [] => [] | x :: xs' => let a := f s x in a :: recording f (fst a) xs' end.

(** An object without its coordinate transformation. *)
Definition hide_ct (o : tobj FO) : tobj FO := set_abs_to_rel None o.

(** The moving ([a]) and the fixed ([b]) tracker agree: same result, same objects with the same ids, counters,
    detections and filters; relative estimates differ by the position [v] of the camera, and the absolute
    estimates of the moving tracker are the estimates of the fixed one. *)
Record alike (v : list N) (a b : st * result (list nat)) : Prop := {
  al_result : snd a = snd b;
  al_tracked : s_tracked (fst a) = s_tracked (fst b);
  al_total : s_count (fst a) = s_count (fst b);
  al_created : s_icount (fst a) = s_icount (fst b);
  al_global : s_gcount (fst a) = s_gcount (fst b);
  al_objects : forall i, known (fst a) i -> hide_ct (s_store (fst a) i) = hide_ct (s_store (fst b) i);
  al_absolute : forall i, tracked (fst a) i -> get_estimate (s_store (fst a) i) true = Ret (estimate (s_store (fst b) i));
  al_relative : forall i, tracked (fst a) i -> estimate (s_store (fst a) i) = moved v (estimate (s_store (fst b) i))
}.

(** ** Distances that depend only on differences of positions *)

(** The same detection from the camera at [v] and in fixed coordinates. *)
Record same_det (d1 d2 : detection N) : Prop := {
  sd_scores : d_scores d1 = d_scores d2; sd_label : d_label d1 = d_label d2; sd_age : d_age d1 = d_age d2;
  sd_data : d_data d1 = d_data d2; sd_absolute : d_absolute_points d1 = d_absolute_points d2 }.
Definition det_seen_from (v : list N) (d1 d2 : detection N) : Prop :=
  same_det d1 d2 /\ d_points d1 = moved v (d_points d2) /\ fits v (d_points d2).
(** The same object; nothing is known about the positions of the camera at its earlier detections. *)
Record obj_seen_from (v : list N) (o1 o2 : oview FO) : Prop := {
  os_object : hide_ct (v_obj o1) = hide_ct (v_obj o2);
  os_estimate : estimate (v_obj o1) = moved v (estimate (v_obj o2));
  os_fits : fits v (estimate (v_obj o2));
  os_last : same_det (v_last o1) (v_last o2);
  os_past : Forall2 same_det (v_past o1) (v_past o2) }.
Definition cand_seen_from (v : list N) (c1 c2 : cview FO) : Prop :=
  match c1, c2 with
  | VDet d1, VDet d2 => det_seen_from v d1 d2
  | VObj o1, VObj o2 => obj_seen_from v o1 o2
  | _, _ => False
  end.
Definition scalar_blind (dim : nat) (f : cview FO -> oview FO -> result (dval N)) : Prop :=
  forall v c1 c2 o1 o2, length v = dim -> cand_seen_from v c1 c2 -> obj_seen_from v o1 o2 -> f c1 o1 = f c2 o2.
Definition vector_blind (dim : nat) (f : list (list N) -> list (list N) -> result (list (list (dval N)))) : Prop :=
  forall v ps qs, length v = dim -> Forall (fits v) ps -> Forall (fits v) qs ->
  f (map (fun p => flatten (moved v p)) ps) (map (fun q => flatten (moved v q)) qs) = f (map flatten ps) (map flatten qs).
(** Both distances of a tracker are of this kind. *)
Record blind_to_position (dim : nat) (c : tconf FO) : Prop := {
  bp_distance : match tc_distance c with ScalarDistance f => scalar_blind dim f | VectorizedDistance f => vector_blind dim f end;
  bp_reid : forall f, tc_reid_distance c = Some f -> scalar_blind dim f
}.
End S.

(** Vocabulary for the points of an object and of the detections matched to it. *)
From Coq Require Import ZArith List Arith Ring.
From Verif Require Import Model.Num Model.Base Model.Filter Model.Tracker Spec.CallSpec.
Import ListNotations.

(** Numbers with the laws of a commutative ring (as the real numbers). *)
Definition ring_num (N : Num) : Prop :=
  ring_theory (@n0 N) n1 nadd nmul nsub (fun x => nsub n0 x) eq.

Section S.
Context {N : Num} {FO : filter_ops N}.
Notation st := (st FO).
Notation tobj := (tobj FO).

(** An array of shape (n, d). *)
Definition rectangular (n d : nat) (p : points N) : Prop :=
  length p = n /\ Forall (fun row => length row = d) p.

(** get_estimate(absolute=True), or the plain estimate while no coordinate transformation is in use. *)
Definition absolute_estimate (o : tobj) : points N :=
  match get_estimate o true with Ret p => p | Raise _ => estimate o end.

(** Two detections with the same scores and the same shape that give the same coordinates for all
    points whose score is above [thr]; they may differ arbitrarily in the other points. *)
Record agree_above (thr : N) (d d' : detection N) : Prop := {
  aa_scores : d_scores d = d_scores d';
  aa_shape : map (@length N) (d_absolute_points d) = map (@length N) (d_absolute_points d');
  aa_points : forall k, above thr d k -> nth_error (d_absolute_points d) k = nth_error (d_absolute_points d') k
}.

(** Point [k] of object [i] was above the threshold in an earlier detection of the object
    (detected_at_least_once_points[k]). *)
Definition detected_before (s : st) (i k : nat) : Prop := nth_error (o_once (s_store s i)) k = Some true.

Definition num_points (s : st) (i : nat) : nat := oc_num_points (o_conf (s_store s i)).
Definition dim_points (s : st) (i : nat) : nat := oc_dim_points (o_conf (s_store s i)).

(** The diagonal of H for a mask of measured sensors. *)
Definition bits (mask : list bool) : list N := map (fun b : bool => if b then n1 else n0) mask.

(** A filter whose update() does not look at the measurements of the sensors that are switched off in H
    (in states with the invariant [wf]). *)
Definition ignores_unmeasured (wf : nat -> fstate FO -> Prop) : Prop :=
  forall d (f : fstate FO) (mask : list bool) (z z' : list N), wf d f ->
  length mask = d -> length z = d -> length z' = d ->
  (forall k, nth_error mask k = Some true -> nth_error z k = nth_error z' k) ->
  f_update FO f z (bits mask) = f_update FO f z' (bits mask).

(** A filter that keeps a state vector of the size of its first detection, positions and velocities,
    for some invariant [wf] of its other components. *)
Record regular (wf : nat -> fstate FO -> Prop) : Prop := {
  rg_create : forall p, wf (length (flatten p)) (f_create FO p);
  rg_predict : forall d f, wf d f -> wf d (f_predict FO f);
  rg_update : forall d f z m, wf d f -> length z = d -> length m = d -> wf d (f_update FO f z m);
  rg_set : forall d f x, wf d f -> length x = 2 * d -> wf d (f_set_x FO f x);
  rg_set_x : forall d f x, wf d f -> length x = 2 * d -> f_x FO (f_set_x FO f x) = x;
  rg_x : forall d f, wf d f -> length (f_x FO f) = 2 * d
}.

End S.
Arguments ignores_unmeasured {N} FO wf.
Arguments regular {N} FO wf.

(** A filter that neither predicts nor corrects anything when it is at rest in [z] and measures [z]. *)
Record steady {N : Num} (FO : filter_ops N) (wf : nat -> fstate FO -> Prop) : Prop := {
  sd_create : forall p, f_x FO (f_create FO p) = flatten p ++ repeat n0 (length (flatten p));
  sd_predict : forall d f z, wf d f -> length z = d -> f_x FO f = z ++ repeat n0 d -> f_x FO (f_predict FO f) = f_x FO f;
  sd_update : forall d f z mask, wf d f -> length z = d -> length mask = d -> f_x FO f = z ++ repeat n0 d ->
    f_x FO (f_update FO f z (bits mask)) = f_x FO f
}.

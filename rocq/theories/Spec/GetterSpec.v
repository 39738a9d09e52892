(** Vocabulary for C102: one call of a transformation getter. *)
From Coq Require Import ZArith Reals Bool Arith List.
From Verif Require Import Model.Num Model.Base Model.CameraMotion Spec.BuiltinSpec Spec.CameraSpec.
Import ListNotations.
Local Open Scope R_scope.

(** Row [a] comes before row [b]: at the first place where they differ its entry is smaller. *)
Definition before (a b : list R) : Prop :=
  exists i x y, firstn i a = firstn i b /\ nth_error a i = Some x /\ nth_error b i = Some y /\ x < y.
(** [v] occurs [k] times in [l], and everything else occurs less often, or as often but comes after [v]. *)
Definition first_mode (l : list (list R)) (v : list R) (k : nat) : Prop :=
  occurs v l k /\ (0 < k)%nat /\ forall w m, w <> v -> occurs w l m -> (m < k)%nat \/ (m = k /\ before v w).
(** [v] added to what was accumulated. *)
Definition accumulated (old : option (list R)) (v : list R) : list R :=
  match old with None => v | Some d => map (fun xy => fst xy + snd xy) (combine v d) end.

(** The law of a call of [TranslationTransformationGetter] on two arrays: the vector and whether a new reference is asked for. *)
Record translation_call (around : R -> R) (g g' : tgetter RNum) (curr prev : points RNum) (flag : bool) (v : list R) : Prop := {
  tc_mode : exists mode k, first_mode (flow_vectors (N := RNum) around (tg_bin g) curr prev) mode k /\
     v = accumulated (tg_data g) mode /\ (flag = true <-> INR k / INR (length prev) < tg_threshold g);
  tc_data : tg_data g' = if flag then Some v else tg_data g;
  tc_same : tg_bin g' = tg_bin g /\ tg_threshold g' = tg_threshold g
}.

(** Applying [m] after what was accumulated. *)
Definition composed (old : option (mat3 RNum)) (m m' : mat3 RNum) : Prop :=
  match old with None => m' = m | Some d => forall v, apply3 m' v = apply3 m (apply3 d v) end.
(** The number of points used is less than the wanted part. *)
Definition too_few (used : list bool) (thr : R) (flag : bool) : Prop :=
  exists k, occurs true used k /\ (flag = true <-> INR k / INR (length used) < thr).
(** Fewer than four points, or none. *)
Definition low (p : option (points RNum)) : Prop := match p with None => True | Some l => (length l < 4)%nat end.

(** C110: the iou distance as a metric, and boxes that are not well formed. *)
From Coq Require Import Reals Lra Bool Arith List.
From Verif Require Import Model.Num Model.Base Model.Tracker Model.Distances Model.BoxCheck Spec.BuiltinSpec Proofs.IouMetric.
Import ListNotations.
Local Open Scope R_scope.

(** C110: the triangle inequality (with C47: a metric). *)
Theorem C110_triangle a b c : well_formed a -> well_formed b -> well_formed c -> exists x y z,
  @iou RNum [a] [b] = Ret [[@DFin RNum x]] /\ @iou RNum [b] [c] = Ret [[@DFin RNum y]] /\ @iou RNum [a] [c] = Ret [[@DFin RNum z]] /\ z <= x + y.
Proof. exact (iou_triangle a b c). Qed.
Print Assumptions C110_triangle.

(** If one of two boxes is not well formed, their distance is 1, or NaN if their (signed) areas add up to 0. *)
Theorem C110_malformed c o : length c = 4%nat -> length o = 4%nat -> ~ (well_formed c /\ well_formed o) ->
  (area c + area o <> 0 -> @iou RNum [c] [o] = Ret [[@DFin RNum 1]]) /\ (area c + area o = 0 -> @iou RNum [c] [o] = Ret [[DNaN]]).
Proof. exact (iou_malformed c o). Qed.
Print Assumptions C110_malformed.

(** A warning is logged exactly if a candidate is not well formed; candidates without four columns raise. *)
Theorem C110_warning cs os : Forall (fun v => length v = 4%nat) cs -> Forall (fun v => length v = 4%nat) os ->
  exists w M, @iou_logged RNum cs os = Ret (w, M) /\ @iou RNum cs os = Ret M /\ (w = false <-> Forall well_formed cs).
Proof. exact (logged cs os). Qed.
Print Assumptions C110_warning.
Theorem C110_columns cs os : Exists (fun v => length v <> 4%nat) cs -> @iou_logged RNum cs os = Raise EAssertionError.
Proof. exact (fun H => not_columns cs H os). Qed.
Print Assumptions C110_columns.

(** Without a warning the distance can be NaN, because the boxes of the objects are not checked. *)
Theorem C110_silent_refuted : exists c o, well_formed c /\ length o = 4%nat /\ @iou_logged RNum [c] [o] = Ret (false, [[DNaN]]).
Proof. exact silent_nan. Qed.
Print Assumptions C110_silent_refuted.

(* ---- three boxes of which neighbours overlap; a box with exchanged corners ---- *)
Example C110_case : well_formed (box 0 0 2 2) /\ well_formed (box 1 0 3 2) /\ well_formed (box 2 0 4 2).
Proof. split; [|split]; apply well_formed_box; lra. Qed.
Example C110_case_malformed : ~ (well_formed (box 2 2 0 0) /\ well_formed (box 0 0 2 2)) /\ area (box 2 2 0 0) + area (box 0 0 2 2) <> 0.
Proof. split; [rewrite !well_formed_box; lra|unfold area; cbn; lra]. Qed.

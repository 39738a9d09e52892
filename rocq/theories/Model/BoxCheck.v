(** norfair/distances.py:334-346 [_validate_bboxes] and the warning it logs from [iou]. *)
From Coq Require Import Bool Arith List.
From Verif Require Import Model.Num Model.Base Model.Tracker Model.Distances.
Import ListNotations.

Section V.
Context {N : Num}.

(** distances.py:338-342: AssertionError unless there are four columns.  343-346: whether the warning is logged. *)
Definition validate_bboxes (bboxes : list (list N)) : result bool :=
  if forallb (fun b => Nat.eqb (length b) 4) bboxes
  then Ret (negb (forallb (fun b => nltb (nth 0 b n0) (nth 2 b n0)) bboxes && forallb (fun b => nltb (nth 1 b n0) (nth 3 b n0)) bboxes))
  else Raise EAssertionError.

(** distances.py:349-384 [iou] with the warning: only the candidates are checked. *)
Definition iou_logged (candidates objects : list (list N)) : result (bool * list (list (dval N))) :=
  match validate_bboxes candidates with
  | Raise e => Raise e
  | Ret warned => match iou candidates objects with Raise e => Raise e | Ret m => Ret (warned, m) end
  end.
End V.

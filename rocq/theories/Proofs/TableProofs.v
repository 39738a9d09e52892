(** Printing the objects of a tracker. *)
From Coq Require Import ZArith Bool Arith String List.
From Verif Require Import Model.Num Model.Base Model.Matching Model.Filter Model.Tracker Model.Video
  Spec.MatchingSpec Proofs.NumLaws Proofs.MatchingProofs Proofs.Effect Proofs.PhasesProofs Proofs.PastLaw Proofs.VideoFrames.
From Verif Require Import Spec.CallSpec Spec.PointSpec Spec.PhasesSpec Spec.TableSpec.

Section S.
Context {N : Num} (laws : NumLaws N) {FO : filter_ops N}.
Lemma table_of_new (fmt4 : dval N -> string) (c : tconf FO) dets p ct (s s' : st FO) out i objs :
  starts_at_rest FO -> rnd_ok (tc_rnd c) -> tracker_state c s -> update c (Some dets) p ct s = (s', Ret out) -> known s' i -> ~ known s i -> In i objs ->
  table_rows fmt4 (map (table_entry s') objs) = Raise ETypeError.
Proof.
  intros R RO TS U K NK Hin. destruct (newborn_state laws c dets p ct s s' out i R RO TS U K NK) as (_ & _ & NB).
  apply table_raises. exists (table_entry s' i). split; [apply in_map; exact Hin|]. exact (nb_last_distance _ _ _ _ _ NB).
Qed.
End S.

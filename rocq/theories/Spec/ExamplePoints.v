(** Concrete trackers for points, over canonical rationals and for any filter. *)
From Coq Require Import ZArith QArith Qcanon Qabs List.
From Verif Require Import Model.Num Model.Base Model.Filter Model.Tracker Spec.CallSpec Spec.ExampleVideo Proofs.RingNums.
Import ListNotations.
Local Open Scope nat_scope.

Section S.
Context {FO : filter_ops QcNum}.

(** Distance of the first coordinates of the first points. *)
Definition pt_first (p : points QcNum) : Q := match p with (x :: _) :: _ => this x | _ => 0%Q end.
Definition pt_distance (c : cview FO) (o : oview FO) : result (dval QcNum) :=
  let z := match c with VDet d => d_points d | VObj o' => estimate (v_obj o') end in
  Ret (DFin (Q2Qc (Qabs (pt_first z - pt_first (estimate (v_obj o)))%Q) : QcNum)).
(** hit_counter_max 3, initialization_delay 1, detection_threshold 1/2, distance_threshold 50. *)
Definition pt_conf : tconf FO :=
  MkTconf (ScalarDistance pt_distance) (DFin (Q2Qc 50 : QcNum)) 3 1 3 (Q2Qc (1 # 2) : QcNum) 2 None (DFin (Q2Qc 0 : QcNum)) None (fun x => x).
Definition pt_dummy : tobj FO :=
  MkObj (FO := FO) (MkOconf (N := QcNum) 0 0 0 0%Z 0%Z 0%Z (Q2Qc 0 : QcNum) 0%Z None 0 LNone) 0%Z None None None 0 0%Z true None None [] [] []
    (f_create FO []) None.
Definition pt_nodet : detection QcNum := new_detection [] None [] LNone.
Definition pt_start : st FO := MkSt (fun _ => pt_nodet) 0 (fun _ => pt_dummy) [] 0 0.
Lemma pt_start_state c : tracker_state c pt_start.
Proof. constructor. Qed.
Definition pt_noframe : frame FO := MkFrame [] 0%Z None pt_start pt_start [].
End S.
Arguments pt_conf FO : clear implicits.
Arguments pt_start FO : clear implicits.
Arguments pt_noframe FO : clear implicits.

Definition qc (x : Q) : QcNum := Q2Qc x.
(** A detection with the given points and scores, passed alone under reference [r]. *)
Definition pt_det (p : list (list Q)) (scores : list Q) : detection QcNum := new_detection (map (map qc) p) (Some (map qc scores)) [] LNone.
Definition pt_at (r : nat) (p : list (list Q)) (scores : list Q) : input QcNum := MkInput [(r, pt_det p scores)] [r] 1%Z None.
Definition pt_nothing : input QcNum := MkInput [] [] 1%Z None.
Definition show (p : points QcNum) : list (list Q) := map (map this) p.
Definition kF : filter_ops QcNum := okf_ops okf_default_params.
Definition nF : filter_ops QcNum := nofilter_ops QcNum.

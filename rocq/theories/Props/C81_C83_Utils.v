(** C81-C83: the printed table, warnings and the grid of points on a sphere. *)
From Coq Require Import ZArith QArith Qcanon Reals Lra Bool Arith Ascii String List Lia.
From Verif Require Import Model.Num Model.Base Model.Strings Model.Matching Model.Filter Model.Tracker Model.Video Model.Grid
  Spec.MatchingSpec Spec.VideoSpec Spec.GridSpec Spec.ExampleTracker Spec.ExampleVideo Spec.ExamplePoints
  Proofs.NumLaws Proofs.RingNums Proofs.MatchingProofs Proofs.Effect Proofs.PhasesProofs Proofs.VideoFrames Proofs.TableProofs Proofs.GridProofs.
From Verif Require Import Spec.CallSpec Spec.PointSpec Spec.PhasesSpec Spec.TableSpec.
Import ListNotations.
Local Open Scope nat_scope.

(** C81: the table has one row per object, in order, when every object has been matched before; otherwise printing fails. *)
Theorem C81_rows (D : Type) (fmt4 : D -> string) objs :
  ((forall o, In o objs -> to_distance o <> None) ->
    exists rows, table_rows fmt4 objs = Ret rows /\ Forall2 (fun o r => exists d, to_distance o = Some d /\
      r = [str_id (to_id o); str_of_Z (to_age o); str_of_Z (to_hit o); fmt4 d; str_of_Z (Z.of_nat (to_init o))]) objs rows) /\
  (table_rows fmt4 objs = Raise ETypeError <-> exists o, In o objs /\ to_distance o = None).
Proof. exact (conj (table_ok fmt4 objs) (table_raises fmt4 objs)). Qed.
Print Assumptions C81_rows.
(** In particular it fails for a list with an object made by the last update. *)
Theorem C81_refuted_new (N : Num) (laws : NumLaws N) (FO : filter_ops N) (fmt4 : dval N -> string) (c : tconf FO) dets p ct (s s' : st FO) out i objs :
  starts_at_rest FO -> rnd_ok (tc_rnd c) -> tracker_state c s -> update c (Some dets) p ct s = (s', Ret out) -> known s' i -> ~ known s i -> In i objs ->
  table_rows fmt4 (map (table_entry s') objs) = Raise ETypeError.
Proof. exact (table_of_new laws fmt4 c dets p ct s s' out i objs). Qed.
Print Assumptions C81_refuted_new.
Definition ex81_det : input QcNum := MkInput [(1, pt_det [[1; 2]; [3; 4]]%Q [1; 1]%Q)] [1] 1%Z None.
Definition ex81_next : input QcNum := MkInput [(2, pt_det [[1; 2]; [3; 4]]%Q [1; 1]%Q)] [2] 1%Z None.
Definition ex81 : list (frame kF) := frames (pt_conf kF) (pt_start kF) [ex81_det; ex81_next].
Definition ex81_f (k : nat) : frame kF := nth k ex81 (pt_noframe kF).
Example ex81_hyps : video (pt_conf kF) (pt_start kF) ex81 /\ known (f_post (ex81_f 0)) 1 /\ ~ known (f_pre (ex81_f 0)) 1.
Proof.
  split; [apply frames_video; vm_compute; reflexivity|]. split; [vm_compute; split; repeat constructor|].
  intros [_ H]. vm_compute in H. lia.
Qed.
Example ex81_outcome : table_rows (fun _ => "d"%string) (map (table_entry (f_post (ex81_f 0))) [1]) = Raise ETypeError /\
  table_rows (fun _ => "d"%string) (map (table_entry (f_post (ex81_f 1))) [1]) = Ret [["1"; "1"; "2"; "d"; "1"]]%string.
Proof. vm_compute. auto. Qed.

(** C82: each distinct warning is logged once, when it first occurs. *)
Theorem C82_warnings ms : let log := wn_log (fold_left (fun w m => warn_once m w) ms (MkWarn [] [])) in
  first_occurrences ms log /\ NoDup log /\ (forall x, In x log <-> In x ms).
Proof. exact (conj (proj1 (warned ms)) (first_occurrences_spec ms _ (proj1 (warned ms)))). Qed.
Print Assumptions C82_warnings.
Example ex82 : wn_log (fold_left (fun w m => warn_once m w) ["a"; "b"; "a"; "c"; "b"]%string (MkWarn [] [])) = ["a"; "b"; "c"]%string.
Proof. reflexivity. Qed.

(** C83: the grid of draw_absolute_grid: n times n points evenly spread in two angles over the half sphere in front
    of the camera, as seen by the camera. *)
Theorem C83_grid n w h polar : (1 <= n) -> exists g, get_grid n w h polar = Ret g /\ length g = n * n /\
  forall i j, i < n -> j < n -> let p := viewpoint polar (spread n i) (spread n j) in
    on_sphere p /\ nth_error g (i * n + j) = Some (seen_at w h p).
Proof. exact (grid_spec n w h polar). Qed.
Print Assumptions C83_grid.
(** The middle point of a grid of odd size is the middle of the frame. *)
Example ex83 : spread 1 0 = 0%R /\ seen_at 640 480 (viewpoint false (spread 1 0) (spread 1 0)) = (320, 240)%R.
Proof.
  assert (E : spread 1 0 = 0%R) by (unfold spread; cbn; field). rewrite E. split; [reflexivity|].
  unfold seen_at, viewpoint, from_equator. rewrite sin_0, cos_0. f_equal; cbn; lra.
Qed.

(** Vocabulary for C98: re-identification distances that recognize the things. *)
From Coq Require Import ZArith List Arith.
From Verif Require Import Model.Num Model.Base Model.Matching Model.Filter Model.Tracker Spec.MatchingSpec Spec.CallSpec Spec.PhasesSpec Spec.GroundTruthSpec.
Import ListNotations.

Section S.
Context {N : Num} {FO : filter_ops N}.
Variable thing : Type.
Variable who : nat -> thing.    (* the thing seen in a detection *)

(** Two views of one object that differ at most in ages of detections. *)
Definition same_view (o o' : oview FO) : Prop :=
  v_obj o = v_obj o' /\ upto_age (v_last o) (v_last o') /\ Forall2 upto_age (v_past o) (v_past o').
(** The same, where current_min_distance may differ too. *)
Definition same_view_min (o o' : oview FO) : Prop :=
  (exists m, v_obj o' = set_min_distance m (v_obj o)) /\ upto_age (v_last o) (v_last o') /\ Forall2 upto_age (v_past o) (v_past o').
(** A re-identification distance that reads neither the attribute [age] of detections nor the current_min_distance of its
    second argument. *)
Definition reid_blind (f : cview FO -> oview FO -> result (dval N)) : Prop := forall j j' o o',
  same_view j j' -> same_view_min o o' -> f (VObj j) o = f (VObj j') o'.

(** Object [j], as the call leaves it, and object [i], when it has made its step, have the same label and a
    re-identification distance below the threshold. *)
Definition reid_near (c : tconf FO) (f : cview FO -> oview FO -> result (dval N)) (s0 s' : st FO) (j i : nat) : Prop :=
  obj_label s' j = obj_label s0 i /\
  exists d, f (VObj (view_obj s' j)) (view_obj s0 i) = Ret d /\ dlt (tc_rnd c d) (tc_reid_threshold c).

(** The thing that object [i] was matched with last is detected in this call. *)
Definition detected (fr : frame FO) (i : nat) : Prop := exists r, In r (f_dets fr) /\ who r = who (last_det (f_pre fr) i).
(** An object that is still initializing and gets a detection in this call. *)
Definition candidate (c : tconf FO) (fr : frame FO) (j : nat) : Prop :=
  matchable c (f_pre fr) j /\ o_initializing (s_store (f_pre fr) j) = true /\ detected fr j.
(** An object that candidates are compared with: retired, or initialized and without detection in this call. *)
Definition searching (c : tconf FO) (fr : frame FO) (i : nat) : Prop :=
  retired c (f_pre fr) i \/ (matchable c (f_pre fr) i /\ o_initializing (s_store (f_pre fr) i) = false /\ ~ detected fr i).

(** The re-identification distance recognizes the things: it is below the threshold exactly for two objects of one thing. *)
Definition recognized (c : tconf FO) (fr : frame FO) : Prop :=
  forall f, tc_reid_distance c = Some f -> forall i j, searching c fr i -> candidate c fr j ->
  (reid_near c f (snd (begin_update c (f_dets fr) (f_ct fr) (f_pre fr))) (f_post fr) j i <->
   who (last_det (f_pre fr) j) = who (last_det (f_pre fr) i)).

(** What a call does to the objects of things: *)
Record right_return (c : tconf FO) (fr : frame FO) : Prop := {
  (* an object never changes to another thing; *)
  rr_keeps : forall i, known (f_pre fr) i -> who (last_det (f_post fr) i) = who (last_det (f_pre fr) i);
  (* a detection goes to the object that follows its thing, *)
  rr_taken : forall i r, matchable c (f_pre fr) i -> In r (f_dets fr) -> who r = who (last_det (f_pre fr) i) ->
     last_det (f_post fr) i = r;
  (* which stays with the tracker, unless it is still initializing and a retired object of the same thing is there; *)
  rr_stays : forall i, matchable c (f_pre fr) i ->
     tc_reid_distance c = None \/ ~ candidate c fr i \/
     (forall o, retired c (f_pre fr) o -> who (last_det (f_pre fr) o) <> who (last_det (f_pre fr) i)) -> tracked (f_post fr) i;
  (* in that case one such object gets the detection and can be matched again, the others and the tracked set are as if
     it had not been there; *)
  rr_back : forall i r, tc_reid_distance c <> None -> candidate c fr i -> In r (f_dets fr) -> who r = who (last_det (f_pre fr) i) ->
     (exists o, retired c (f_pre fr) o /\ who (last_det (f_pre fr) o) = who r) ->
     ~ tracked (f_post fr) i /\
     exists o, retired c (f_pre fr) o /\ who (last_det (f_pre fr) o) = who r /\ tracked (f_post fr) o /\ last_det (f_post fr) o = r /\
       hit_counter (f_post fr) o = (2 * oc_initial_period (o_conf (s_store (f_pre fr) o)))%Z /\ o_reid (s_store (f_post fr) o) = None /\
       o_initializing (s_store (f_post fr) o) = o_initializing (s_store (f_pre fr) o) /\
       o_id (s_store (f_post fr) o) = o_id (s_store (f_pre fr) o) /\ o_gid (s_store (f_post fr) o) = o_gid (s_store (f_pre fr) o) /\
       forall o', retired c (f_pre fr) o' -> who (last_det (f_pre fr) o') = who r -> o' <> o -> last_det (f_post fr) o' = last_det (f_pre fr) o';
  (* every other object has the detection it had; *)
  rr_missed : forall i, known (f_pre fr) i -> ~ (matchable c (f_pre fr) i /\ detected fr i) ->
     ~ (tc_reid_distance c <> None /\ retired c (f_pre fr) i /\
        exists j, candidate c fr j /\ who (last_det (f_pre fr) j) = who (last_det (f_pre fr) i)) ->
     last_det (f_post fr) i = last_det (f_pre fr) i;
  (* new objects are made for the detected things that no object could be matched for, and for no other; *)
  rr_new : forall r, In r (f_dets fr) -> (forall i, matchable c (f_pre fr) i -> who (last_det (f_pre fr) i) <> who r) ->
     exists i, s_icount (f_pre fr) < i <= s_icount (f_post fr) /\ tracked (f_post fr) i /\ last_det (f_post fr) i = r;
  rr_only_new : forall i, s_icount (f_pre fr) < i <= s_icount (f_post fr) ->
     In (last_det (f_post fr) i) (f_dets fr) /\
     forall j, matchable c (f_pre fr) j -> who (last_det (f_pre fr) j) <> who (last_det (f_post fr) i);
  (* and no two objects that can be matched follow one thing. *)
  rr_one_each : one_each thing who c (f_post fr)
}.
End S.

Section Embeddings.
Context {N : Num} {FO : filter_ops N}.

(** All detections passed in these calls. *)
Definition all_dets (fs : list (frame FO)) : list nat := flat_map f_dets fs.

(** From the call in which it is first passed on, detection [r] has label [lab r] and embedding [emb r].  [seen] are the
    detections passed before. *)
Fixpoint embedded (lab : nat -> label) (emb : nat -> list N) (seen : list nat) (fs : list (frame FO)) : Prop :=
  match fs with
  | [] => True
  | fr :: fs' =>
    (forall r, In r (f_dets fr ++ seen) -> d_label (s_heap (f_pre fr) r) = lab r /\ d_data (s_heap (f_pre fr) r) = emb r) /\
    embedded lab emb (f_dets fr ++ seen) fs'
  end.

(** A re-identification distance that compares the embeddings of the last detections. *)
Definition compares_embeddings (e : list N -> list N -> dval N) (f : cview FO -> oview FO -> result (dval N)) : Prop :=
  forall j o, f (VObj j) o = Ret (e (d_data (v_last j)) (d_data (v_last o))).

(** Among these detections, the labels are equal and the distance of the embeddings is below [thr] exactly for two
    detections of one thing. *)
Definition telling {thing : Type} (who : nat -> thing) (lab : nat -> label) (emb : nat -> list N) (e : list N -> list N -> dval N)
    (rnd : dval N -> dval N) (thr : dval N) (rs : list nat) : Prop :=
  forall r r', In r rs -> In r' rs -> (lab r = lab r' /\ dlt (rnd (e (emb r) (emb r'))) thr <-> who r = who r').
End Embeddings.

(** What AbsolutePaths leaves in the frame it is given (C115). *)
From Coq Require Import ZArith QArith Bool Arith List Lia.
From Verif Require Import Model.Num Model.Base Model.Tracker Model.CameraMotion Model.Images Model.Drawing Model.PathsFrames
  Spec.ImageSpec Spec.DrawingSpec Spec.PathsFramesSpec Proofs.DrawingProofs.
Import ListNotations.
Local Open Scope nat_scope.

Section F.
Context {Img : Type} (circle : position -> Img -> Img) (blend : list (position * position) -> Q -> Img -> Img).
Notation into := (into_arrays circle blend).
Notation one_step := (one_step circle blend).
Lemma into_returned : forall st g cur, snd (into st g cur) = fold_left one_step st (match cur with None => g | Some f => f end).
Proof. induction st as [|[c|l a] st IH]; intros g [f|]; cbn [into_arrays fold_left PathsFramesSpec.one_step]; try reflexivity; rewrite IH; reflexivity. Qed.
Lemma into_kept : forall st g f, fst (into st g (Some f)) = g.
Proof. induction st as [|[c|l a] st IH]; intros g f; cbn [into_arrays]; auto. Qed.
Lemma into_circles qs : forall st g, into (map (fun q => PCircle (int_point q)) qs ++ st) g None = into st (fold_left (fun im q => circle (int_point q) im) qs g) None.
Proof. induction qs as [|q qs IH]; intros st g; [reflexivity|]. cbn [map app into_arrays fold_left]. apply IH. Qed.

Lemma into_new n f past os : (forall o, In o os -> past o = []) -> forall st g,
  into (flat_map (fun o => trace n f (past o) o) os ++ st) g None =
  into st (fold_left (fun im q => circle (int_point q) im) (flat_map (fun o => f (po_points o)) os) g) None.
Proof.
  induction os as [|o os IH]; intros H st g; [reflexivity|]. cbn [flat_map]. unfold trace at 1. rewrite (H o (or_introl eq_refl)).
  cbn [consecutive map]. rewrite app_nil_r, <- app_assoc, into_circles, fold_left_app. apply IH. intros o' I. apply H. right. exact I.
Qed.

Theorem given_afterwards n m calls t objs g os1 o os2 : Forall (good_call m) calls -> good_call m (Some t, objs) -> NoDup (map po_id (filter alive objs)) ->
  0 < n -> filter alive objs = os1 ++ o :: os2 -> (forall o', In o' os1 -> trail (po_id o') calls = []) -> trail (po_id o) calls <> [] ->
  exists h h' st, absolute_run n calls [] = (h, Ret tt) /\ absolute_draw n (Some t) objs h = (h', (st, Ret tt)) /\
  fst (into st g None) = fold_left (fun im q => circle (int_point q) im) (flat_map (fun o => ct_abs_to_rel t (po_points o)) (os1 ++ [o])) g /\
  snd (into st g None) = fold_left one_step st g.
Proof.
  intros A B C Hn E N1 N2. destruct (absolute_drawn n m calls t objs A B C) as (h & h' & st & E1 & E2 & E3).
  exists h, h', st. split; [exact E1|]. split; [exact E2|]. split; [|apply (into_returned st g None)]. rewrite E3, E, flat_map_app.
  rewrite (into_new n (ct_abs_to_rel t) (fun o => firstn n (rev (trail (po_id o) calls)))); [|intros o' I; rewrite (N1 o' I); destruct n; reflexivity].
  cbn [flat_map]. unfold trace at 1. destruct (firstn n (rev (trail (po_id o) calls))) as [|p past] eqn:F.
  - exfalso. apply N2. destruct n as [|n]; [lia|]. destruct (rev (trail (po_id o) calls)) as [|x l] eqn:R; [|discriminate].
    rewrite <- (rev_involutive (trail (po_id o) calls)), R. reflexivity.
  - rewrite <- app_assoc, into_circles. cbn [consecutive map app into_arrays]. rewrite into_kept, flat_map_app, fold_left_app. cbn [flat_map]. rewrite app_nil_r. reflexivity.
Qed.
Theorem given_first n m calls t objs g : Forall (good_call m) calls -> good_call m (Some t, objs) -> NoDup (map po_id (filter alive objs)) ->
  (forall o, In o objs -> alive o = true -> trail (po_id o) calls = []) ->
  exists h h' st, absolute_run n calls [] = (h, Ret tt) /\ absolute_draw n (Some t) objs h = (h', (st, Ret tt)) /\
  fst (into st g None) = snd (into st g None).
Proof.
  intros A B C N. destruct (absolute_drawn n m calls t objs A B C) as (h & h' & st & E1 & E2 & E3).
  exists h, h', st. split; [exact E1|]. split; [exact E2|]. rewrite E3. rewrite <- (app_nil_r (flat_map _ _)).
  rewrite (into_new n (ct_abs_to_rel t) (fun o => firstn n (rev (trail (po_id o) calls)))); [reflexivity|].
  intros o I. apply filter_In in I as [I L]. rewrite (N o I L). destruct n; reflexivity.
Qed.
End F.

(** Two objects that were drawn before, and a new one. *)
Definition walker (i : nat) (x : Q) : path_object := MkPathObj [true] (Some i) [[x; 0%Q]].
Definition walk_still : coord_transformation QNum := translation (N := QNum) [0%Q; 0%Q].
Definition walk_calls : list (option (coord_transformation QNum) * list path_object) := [(Some walk_still, [walker 1 1; walker 2 50])].
Definition walk_now : list path_object := [walker 3 90; walker 1 2; walker 2 51].
Lemma walk_good : Forall (good_call 1) walk_calls /\ good_call 1 (Some walk_still, walk_now) /\ NoDup (map po_id (filter alive walk_now)) /\
  trail (Some 3) walk_calls = [] /\ trail (Some 1) walk_calls <> [].
Proof.
  refine (conj _ (conj _ (conj _ (conj _ _)))).
  - repeat constructor. eexists. split; [reflexivity|]. split; [intros p; apply map_length|repeat constructor].
  - eexists. split; [reflexivity|]. split; [intros p; apply map_length|repeat constructor].
  - cbn. repeat constructor; cbn; intros H; repeat destruct H as [H|H]; try discriminate; auto.
  - reflexivity.
  - discriminate.
Qed.
Lemma walk_differs : exists n m calls t objs h h' st, Forall (good_call m) calls /\ good_call m (Some t, objs) /\ NoDup (map po_id (filter alive objs)) /\
  absolute_run n calls [] = (h, Ret tt) /\ absolute_draw n (Some t) objs h = (h', (st, Ret tt)) /\
  let out := into_arrays tell_circle tell_blend st [] None in
  fst out = [PCircle [90; 0]; PCircle [2; 0]]%Z /\ length (snd out) = 5 /\ In (PCircle [51; 0]%Z) (snd out).
Proof.
  destruct walk_good as (A & B & C & _). destruct (absolute_drawn 5 1 walk_calls walk_still walk_now A B C) as (h & h' & st & E1 & E2 & E3).
  exists 5, 1, walk_calls, walk_still, walk_now, h, h', st. split; [exact A|]. split; [exact B|]. split; [exact C|]. split; [exact E1|]. split; [exact E2|].
  rewrite E3. vm_compute. split; [reflexivity|]. split; [reflexivity|]. auto 6.
Qed.

(** C114: what Paths draws for tracked objects. *)
From Coq Require Import ZArith QArith Bool Arith List.
From Verif Require Import Model.Num Model.Base Model.Filter Model.Tracker Model.Images Model.Color Model.Drawing Model.PathsDrawing
  Spec.DrawingSpec Spec.PathsSpec Spec.ExampleTracker Proofs.PathsProofs.
Import ListNotations.
Local Open Scope nat_scope.

(** A new drawer over any video: one radius and one thickness for all calls, and in each call for each object the circles of its
    points to draw (by default one, at the mean of its estimate) in the color of the drawer or of the id.  What [masks] shows
    of these circles is said by C72. *)
Theorem C114_drawn : forall (FO : filter_ops QNum) disc pal height points thickness color radius att (video : list (take FO)),
  (color <> None \/ pa_colors pal <> []) ->
  exists r t csss, radius_of radius height r /\ thickness_of thickness height t /\
    paths_run disc pal height (paths_new points thickness color radius att) video =
      map (fun x => Ret (snd x)) (masks (disc r t) att None (combine (map fst video) (map (@concat _) csss))) /\
    Forall2 (fun tk css => Forall2 (fun o cs => exists c, color_of pal color o c /\
      match points with
      | Some f => cs = map (fun q => (int_point q, c)) (f (estimate o))
      | None => estimate o <> [] -> exists q, cs = [(q, c)] /\ center_of (estimate o) q
      end) (snd tk) css) video csss.
Proof. exact @paths_drawn. Qed.
Print Assumptions C114_drawn.

(** With an empty palette and no color of its own, drawing an object with an id fails. *)
Theorem C114_no_palette : forall (FO : filter_ops QNum) disc pal (p : paths) height frame (os : list (tobj FO)),
  ph_color p = None -> pa_colors pal = [] -> (exists o, In o os /\ o_id o <> None) ->
  snd (paths_step disc pal p height frame os) = Raise EZeroDivisionError.
Proof. exact @paths_no_palette. Qed.
Print Assumptions C114_no_palette.

(** A call asks for the warning about moving cameras exactly when some object has a coordinate transformation. *)
Theorem C114_warning : forall (FO : filter_ops QNum) pal (p : paths), (ph_color p <> None \/ pa_colors pal <> []) -> forall os : list (tobj FO),
  paths_warns pal p os = true <-> exists o, In o os /\ o_abs_to_rel o <> None.
Proof. exact @paths_warning. Qed.
Print Assumptions C114_warning.

(** An object of two points, none of them live, moves by two pixels; the path fades. *)
Example C114_case : let o := path_obj (Some 3) None [1; 2; 4; 3]%Q in let o' := path_obj (Some 3) None [3; 2; 6; 3]%Q in
  live_points o = [false; false] /\ center_of (estimate o) [2; 2]%Z /\
  let run := paths_run dot palette0 480 (paths_new None None None None (1 # 2)) [(dark, [o]); (dark, [o'])] in
  seen_at run 0 2 2 = Some [40; 39; 214]%Z /\ seen_at run 1 2 2 = Some [20; 19; 107]%Z /\ seen_at run 1 2 4 = Some [40; 39; 214]%Z.
Proof. exact paths_case. Qed.
Example C114_case_palette : let o := path_obj (Some 3) None [1; 2; 4; 3]%Q in
  o_id o <> None /\ paths_run dot (MkPalette [] (0, 0, 0)%Z) 480 (paths_new None None None None (1 # 2)) [(dark, [o])] = [Raise EZeroDivisionError].
Proof. split; [discriminate|vm_compute; reflexivity]. Qed.

(** With a moving camera a still object leaves a path: it does not move in absolute coordinates, yet two pixels are painted. *)
Theorem C114_moving_refuted : exists (o1 o2 : tobj exF) y1 x1 y2 x2, o_id o1 = o_id o2 /\ get_estimate o1 true = get_estimate o2 true /\ (y1, x1) <> (y2, x2) /\
  let run := paths_run dot palette0 480 (paths_new None None None None (1 # 2)) [(dark, [o1]); (dark, [o2])] in
  exists a b, seen_at run 1 y1 x1 = Some a /\ seen_at run 1 y2 x2 = Some b /\ a <> [0; 0; 0]%Z /\ b <> [0; 0; 0]%Z.
Proof. exact paths_moving. Qed.
Print Assumptions C114_moving_refuted.

(** What Paths draws for tracked objects (C114). *)
From Coq Require Import ZArith QArith Qround Bool Arith List Lia Lqa.
From Verif Require Import Model.Num Model.Base Model.Filter Model.Tracker Model.CameraMotion Model.Images Model.Color Model.Drawing Model.PathsDrawing
  Spec.DrawingSpec Spec.PathsSpec Spec.ExampleTracker.
Import ListNotations.
Local Open Scope nat_scope.

Lemma forall2_weaken {A B} (P Q : A -> B -> Prop) l l' : (forall a b, P a b -> Q a b) -> Forall2 P l l' -> Forall2 Q l l'.
Proof. intros H. induction 1; constructor; auto. Qed.
Lemma trunc_nonneg q : (0 <= q)%Q -> (inject_Z (trunc q) <= q < inject_Z (trunc q) + 1)%Q.
Proof.
  intros H. unfold trunc. rewrite (proj2 (Qle_bool_iff 0 q) H). split; [apply Qfloor_le|].
  pose proof (Qlt_floor q) as L. rewrite inject_Z_plus in L. exact L.
Qed.
Lemma trunc_negative q : (q < 0)%Q -> (inject_Z (trunc q) - 1 < q <= inject_Z (trunc q))%Q.
Proof.
  intros H. unfold trunc. destruct (Qle_bool 0 q) eqn:E; [apply Qle_bool_iff in E; lra|]. split; [|apply Qle_ceiling].
  pose proof (Qceiling_lt q) as L. unfold Z.sub in L. rewrite inject_Z_plus in L. exact L.
Qed.
Lemma at_least_one_whole q q' : (q == q')%Q -> whole_part q' (at_least_one q).
Proof.
  intros E. unfold whole_part, at_least_one. split; intros H.
  - rewrite (proj2 (Qle_bool_iff 1 q)) by lra. destruct (trunc_nonneg q); lra.
  - destruct (Qle_bool 1 q) eqn:B; [apply Qle_bool_iff in B; lra|reflexivity].
Qed.
Lemma mean_center ps : ps <> [] -> exists q, mean_point ps = [q] /\ center_of ps (int_point q).
Proof.
  intros H. destruct ps as [|r ps]; [contradiction|]. eexists. split; [reflexivity|]. split.
  - unfold int_point. rewrite !map_length, seq_length. reflexivity.
  - intros k v E. unfold int_point in E. rewrite map_map, nth_error_map in E.
    destruct (nth_error (seq 0 (length r)) k) as [i|] eqn:S; [|discriminate]. cbn in E.
    assert (i = k). { assert (L : k < length (seq 0 (length r))) by (apply nth_error_Some; rewrite S; discriminate).
      apply (nth_error_nth _ _ 0) in S. rewrite seq_nth in S by (rewrite seq_length in L; exact L). exact (eq_sym S). }
    subst i. injection E as <-.
    match goal with |- context [trunc ?q] => set (m := q) end. exists m. split.
    + unfold m. rewrite Qmult_comm. apply Qmult_div_r. change 0%Q with (inject_Z 0). rewrite inject_Z_injective. lia.
    + split; [apply trunc_nonneg|apply trunc_negative].
Qed.

Section P.
Context {FO : filter_ops QNum}.
Notation tobj := (tobj FO).

Lemma circles_ok pal (p : paths) : (ph_color p <> None \/ pa_colors pal <> []) -> forall os : list tobj,
  exists css, all_circles pal p os = (concat css, None) /\
    Forall2 (fun o cs => exists c, color_of pal (ph_color p) o c /\
      cs = map (fun q => (int_point q, c)) (match ph_points p with None => mean_point | Some f => f end (estimate o))) os css.
Proof.
  intros Hc. induction os as [|o os IH]; [exists []; split; [reflexivity|constructor]|]. destruct IH as (css & E & F).
  assert (C : exists c, (match ph_color p with None => choose_color pal (hash_id (o_id o)) | Some c => Ret c end) = Ret c /\ color_of pal (ph_color p) o c).
  { unfold color_of. destruct (ph_color p) as [c|]; [exists c; auto|]. destruct Hc as [Hc|Hc]; [contradiction|].
    destruct (hash_id (o_id o)) as [h|]; [|eexists; split; reflexivity]. unfold choose_color.
    destruct (pa_colors pal) as [|x l]; [contradiction|]. cbn [length].
    destruct (nth_error (x :: l) _) as [c|] eqn:N; [exists c; auto|]. exfalso. apply nth_error_None in N. cbn [length] in N.
    pose proof (Z.mod_pos_bound (Z.abs h) (Z.of_nat (S (length l))) ltac:(lia)). lia. }
  destruct C as (c & C1 & C2). eexists (_ :: css). split.
  - cbn [all_circles]. unfold object_circles. rewrite C1, E. reflexivity.
  - constructor; [exists c; split; [exact C2|reflexivity]|exact F].
Qed.

Lemma run_started disc pal height r t f color att : (color <> None \/ pa_colors pal <> []) -> forall (video : list (take FO)) m,
  exists csss, paths_run disc pal height (MkPaths f (Some t) (Some r) color att (Some m)) video =
      map (fun x => Ret (snd x)) (masks (disc r t) att (Some m) (combine (map fst video) (map (@concat _) csss))) /\
    Forall2 (fun tk css => Forall2 (fun o cs => exists c, color_of pal color o c /\
      cs = map (fun q => (int_point q, c)) (match f with None => mean_point | Some f => f end (estimate o))) (snd tk) css) video csss.
Proof.
  intros Hc. induction video as [|[frame os] video IH]; intros m; [exists []; split; [reflexivity|constructor]|].
  destruct (circles_ok pal (MkPaths f (Some t) (Some r) color att (Some m)) Hc os) as (css & E & F).
  destruct (IH (fst (paths_draw (disc r t) att (Some m) frame (concat css)))) as (csss & E2 & F2).
  exists (css :: csss). split; [|constructor; [exact F|exact F2]].
  cbn [paths_run map combine fst snd masks]. unfold paths_step. cbn [first_frame ph_mask ph_radius ph_thickness ph_points ph_color ph_attenuation].
  rewrite E. destruct (paths_draw (disc r t) att (Some m) frame (concat css)) as [mask out] eqn:D. cbn [fst snd map] in *. f_equal. exact E2.
Qed.
Lemma masks_black_start disc att : forall video, masks disc att (Some (fun _ _ => [0; 0; 0]%Z)) video = masks disc att None video.
Proof. intros [|[f cs] video]; reflexivity. Qed.

Theorem paths_drawn disc pal height points thickness color radius att (video : list (take FO)) :
  (color <> None \/ pa_colors pal <> []) ->
  exists r t csss, radius_of radius height r /\ thickness_of thickness height t /\
    paths_run disc pal height (paths_new points thickness color radius att) video =
      map (fun x => Ret (snd x)) (masks (disc r t) att None (combine (map fst video) (map (@concat _) csss))) /\
    Forall2 (fun tk css => Forall2 (fun o cs => exists c, color_of pal color o c /\
      match points with
      | Some f => cs = map (fun q => (int_point q, c)) (f (estimate o))
      | None => estimate o <> [] -> exists q, cs = [(q, c)] /\ center_of (estimate o) q
      end) (snd tk) css) video csss.
Proof.
  intros Hc.
  set (t := match thickness with Some t => t | None => at_least_one (inject_Z height / 100 / 7) end).
  set (r := match radius with Some r => r | None => at_least_one (inject_Z height / 100 * (7 # 10)) end).
  destruct (run_started disc pal height r t points color att Hc video (fun _ _ => [0; 0; 0]%Z)) as (csss & E & F).
  exists r, t, csss. split.
  { unfold radius_of, r. destruct radius; [reflexivity|]. apply at_least_one_whole. field. }
  split. { unfold thickness_of, t. destruct thickness; [reflexivity|]. apply at_least_one_whole. field. }
  split.
  - rewrite <- masks_black_start. refine (eq_trans _ E). destruct video as [|[frame os] video]; reflexivity.
  - eapply forall2_weaken; [|exact F]. intros tk css G. eapply forall2_weaken; [|exact G]. intros o cs (c & C & ->). exists c. split; [exact C|].
    destruct points as [f|]; [reflexivity|]. intros NE. destruct (mean_center _ NE) as (q & -> & Q). exists (int_point q). split; [reflexivity|exact Q].
Qed.

Lemma paths_warning pal (p : paths) : (ph_color p <> None \/ pa_colors pal <> []) -> forall os : list tobj,
  paths_warns pal p os = true <-> exists o, In o os /\ o_abs_to_rel o <> None.
Proof.
  intros Hc. induction os as [|o os IH]; [split; [discriminate|intros (o & [] & _)]|]. cbn [paths_warns].
  destruct (o_abs_to_rel o) as [f|] eqn:E.
  - split; [intros _; exists o; split; [left; reflexivity|rewrite E; discriminate]|reflexivity].
  - destruct (circles_ok pal p Hc [o]) as (css & A & _). cbn [all_circles] in A. destruct (object_circles pal p o); [|discriminate].
    rewrite IH. split; intros (o' & I & N); exists o'; (split; [|exact N]); [right; exact I|]. destruct I as [<-|I]; [congruence|exact I].
Qed.
End P.

(** An empty palette. *)
Lemma paths_no_palette {FO : filter_ops QNum} disc pal (p : paths) height frame (os : list (tobj FO)) : ph_color p = None -> pa_colors pal = [] ->
  (exists o, In o os /\ o_id o <> None) -> snd (paths_step disc pal p height frame os) = Raise EZeroDivisionError.
Proof.
  intros Hc Hp Ho.
  assert (A : forall p', ph_color p' = None -> exists cs, all_circles pal p' os = (cs, Some EZeroDivisionError)).
  { intros p' C. destruct Ho as (o & I & N). induction os as [|o' os' IH]; [destruct I|]. cbn [all_circles]. unfold object_circles. rewrite C.
    destruct (o_id o') as [i|] eqn:E.
    - cbn [hash_id option_map]. unfold choose_color. rewrite Hp. eexists. reflexivity.
    - cbn [hash_id option_map choose_color]. destruct I as [<-|I]; [congruence|]. destruct (IH I) as (cs & ->). eexists. reflexivity. }
  unfold paths_step. destruct (A (first_frame height p)) as (cs & ->); [unfold first_frame; destruct (ph_mask p); exact Hc|].
  destruct (paths_draw _ _ _ _ cs). reflexivity.
Qed.

(** ** Concrete objects: two points each, the camera displaced by [v] *)
Definition path_obj (i : option nat) (v : option (list Q)) (xs : list Q) : tobj exF :=
  MkObj (FO:=exF) (MkOconf (N:=QNum) 0 2 2 0%Z 0%Z 0%Z (0%Q : QNum) 0%Z None 0 LNone) 0%Z None None None 0 0%Z true i i [true; true] [0; 0]%Z []
    (MkNoFilter (N:=QNum) 4 xs) (option_map (fun v => ct_abs_to_rel (translation (N:=QNum) v)) v).
(** Circles of one pixel on black frames. *)
Definition dot (r t : Z) (q : position) (y x : Z) : bool := match q with [a; b] => (a =? x)%Z && (b =? y)%Z | _ => false end.
Definition dark : canvas := fun _ _ => [0; 0; 0]%Z.
Definition seen_at (l : list (result canvas)) (k : nat) (y x : Z) : option pixel :=
  match nth_error l k with Some (Ret c) => Some (c y x) | _ => None end.
Lemma paths_case : let o := path_obj (Some 3) None [1; 2; 4; 3]%Q in let o' := path_obj (Some 3) None [3; 2; 6; 3]%Q in
  live_points o = [false; false] /\ center_of (estimate o) [2; 2]%Z /\
  let run := paths_run dot palette0 480 (paths_new None None None None (1 # 2)) [(dark, [o]); (dark, [o'])] in
  seen_at run 0 2 2 = Some [40; 39; 214]%Z /\ seen_at run 1 2 2 = Some [20; 19; 107]%Z /\ seen_at run 1 2 4 = Some [40; 39; 214]%Z.
Proof.
  cbv zeta. split; [reflexivity|]. split.
  - destruct (mean_center (estimate (path_obj (Some 3) None [1; 2; 4; 3]%Q))) as (q & E & C); [discriminate|].
    assert (Q : int_point q = [2; 2]%Z). { vm_compute in E. injection E as <-. reflexivity. } rewrite <- Q. exact C.
  - refine (conj _ (conj _ _)); vm_compute; reflexivity.
Qed.
Lemma paths_moving : exists (o1 o2 : tobj exF) y1 x1 y2 x2, o_id o1 = o_id o2 /\ get_estimate o1 true = get_estimate o2 true /\ (y1, x1) <> (y2, x2) /\
  let run := paths_run dot palette0 480 (paths_new None None None None (1 # 2)) [(dark, [o1]); (dark, [o2])] in
  exists a b, seen_at run 1 y1 x1 = Some a /\ seen_at run 1 y2 x2 = Some b /\ a <> [0; 0; 0]%Z /\ b <> [0; 0; 0]%Z.
Proof.
  exists (path_obj (Some 3) (Some [0; 0]%Q) [1; 2; 4; 3]%Q), (path_obj (Some 3) (Some [5; 0]%Q) [1; 2; 4; 3]%Q), 2%Z, 2%Z, 2%Z, 7%Z.
  split; [reflexivity|]. split; [reflexivity|]. split; [discriminate|]. cbv zeta. exists [20; 19; 107]%Z, [40; 39; 214]%Z.
  refine (conj _ (conj _ (conj _ _))); [vm_compute; reflexivity|vm_compute; reflexivity|discriminate|discriminate].
Qed.

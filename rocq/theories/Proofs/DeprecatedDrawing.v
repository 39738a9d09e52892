From Coq Require Import ZArith QArith Qround Lqa Bool Arith Ascii String List Lia.
From Verif Require Import Model.Num Model.Base Model.Filter Model.Tracker Model.CameraMotion Model.Images Model.Strings Model.Color Model.Drawing
  Spec.DrawingSpec Proofs.ColorProofs Proofs.DrawingProofs.
Import ListNotations.
Local Open Scope Q_scope.

Lemma build_text_noscore (score_text : list Q -> string) d (l i : bool) :
  build_text score_text d l i false = joined [(if l then label_part d else EmptyString); (if i then id_part d else EmptyString)].
Proof.
  transitivity (build_text (fun _ => "x"%string) d l i false); [reflexivity|]. rewrite build_text_joined by discriminate. unfold joined. cbn [filter]. reflexivity.
Qed.

Section D.
Context (hash_str : string -> Z) (rand : nat -> Z) (score_text : list Q -> string).

(* ---- the deprecated functions ---- *)
Lemma each_in f c : forall ds k, In c (fst (each f k ds)) -> exists j d, In d ds /\ In c (fst (f j d)).
Proof.
  induction ds as [|d ds IH]; intros k H; cbn in H; [destruct H|]. destruct (f k d) as [c1 [u|e]] eqn:E.
  - destruct (each f (S k) ds) as [c2 r2] eqn:E2. cbn in H. apply in_app_iff in H as [H|H].
    + exists k, d. rewrite E. split; [left; reflexivity|exact H].
    + destruct (IH (S k)) as (j & d' & A & B); [rewrite E2; exact H|]. exists j, d'. split; [right; exact A|exact B].
  - cbn in H. exists k, d. rewrite E. split; [left; reflexivity|exact H].
Qed.
Lemma drawer_text_in sh s pos size col th c : In c (drawer_text sh s pos (Some size) col (Some th)) -> exists o cc, c = PutText s o size cc th.
Proof. cbn. intros [<-|[<-|[]]]; eauto. Qed.
Lemma points_calls sh p a tc size th rad thick hide k d c : da_text_size a = Some size -> da_text_thickness a = Some th ->
  In c (fst (points_of_object hash_str rand score_text sh p a tc rad thick hide k d)) ->
  (exists q col t, c = Circle q rad col t) \/ (exists o cc, c = PutText (build_text score_text d (da_labels a) (da_ids a) (da_scores a)) o size cc th).
Proof.
  intros E1 E2 H. unfold points_of_object in H. destruct (hide && _); [destruct H|]. destruct (object_color _ _ _ _ _ _) as [col|e]; [|destruct H].
  set (circles := if da_shape_on a then _ else _) in H.
  assert (HC : In c circles -> exists q col t, c = Circle q rad col t) by (unfold circles; destruct (da_shape_on a); [|intros []]; intros X; apply in_map_iff in X as ([q l] & <- & _); eauto).
  destruct (_ || _); [|left; apply HC, H]. destruct (Nat.eqb _ _); [|left; apply HC, H]. cbv zeta in H. destruct (column_means _) as [[x y]|]; [|left; apply HC, H].
  cbn [fst] in H. apply in_app_iff in H as [H|H]; [left; apply HC, H|]. right. rewrite E1, E2 in H. exact (drawer_text_in _ _ _ _ _ _ _ H).
Qed.

Lemma tracked_objects_spec sh p objects radius color id_size id_thickness dp cl dl label_size cs r :
  draw_tracked_objects hash_str rand score_text sh p objects radius color id_size id_thickness dp cl dl label_size = (cs, Ret r) ->
  (0 <= fst (fst sh) < 20000)%Z -> r = Nothing /\ forall c, In c cs ->
  (exists q col t, c = Circle q (match radius with Some r => r | None => fst (fst sh) / 200 end)%Z col t) \/
  exists s o z cc, c = PutText s o z cc (match id_thickness with Some t => t | None => fst (fst sh) / 500 end)%Z /\
    match label_size with None => z == 1 | Some q => ~ q == 0 -> z = q end.
Proof.
  intros E Hh. set (h := fst (fst sh)) in *. unfold draw_tracked_objects in E. cbv zeta in E. fold h in E.
  assert (Tr : forall m : Z, (0 < m)%Z -> forall q, q == inject_Z h / inject_Z m -> trunc q = (h / m)%Z).
  { intros m Hm q Eq. unfold trunc. assert (Hq : 0 <= q). { rewrite Eq. apply Qle_shift_div_l; [change 0 with (inject_Z 0); rewrite <- Zlt_Qlt; lia|]. rewrite Qmult_0_l. change 0 with (inject_Z 0). rewrite <- Zle_Qle. lia. }
    destruct (Qle_bool 0 q) eqn:Eb; [|apply Qle_bool_iff in Hq; congruence]. rewrite Eq. apply Zdiv_Qdiv || (rewrite Zdiv_Qdiv; reflexivity). }
  rewrite (Tr 200%Z ltac:(lia) (inject_Z h / 100 * (1 # 2))) in E by (change (inject_Z 200) with (200 # 1); field). rewrite (Tr 500%Z ltac:(lia) (inject_Z h / 100 / 5)) in E by (change (inject_Z 500) with (500 # 1); field).
  assert (Ls : trunc (if Qle_bool 1 (inject_Z h / 100 / 100) then inject_Z h / 100 / 100 else 1) = 1%Z).
  { destruct (Qle_bool 1 _) eqn:Eb; [|reflexivity]. rewrite (Tr 10000%Z) by (try lia; change (inject_Z 10000) with (10000 # 1); field). apply Qle_bool_iff in Eb.
    assert (X : (10000 <= h)%Z). { rewrite Zle_Qle. setoid_replace (inject_Z h) with (inject_Z h / 100 / 100 * 10000) by field. change (inject_Z 10000) with (1 * 10000). apply Qmult_le_compat_r; [exact Eb|discriminate]. }
    symmetry. apply (Z.div_unique_pos h 10000 1 (h - 10000)); lia. }
  rewrite Ls in E. destruct (draw_points _ _ _ _ _ _ _ _ _ _) as [cs' [r'|e]] eqn:Ed; [|discriminate]. injection E as <- <-. split; [reflexivity|]. intros c Hc.
  unfold draw_points in Ed. destruct objects as [ds|]; [|injection Ed as <- _; destruct Hc]. cbn [da_text_color parse_opt] in Ed. cbv zeta in Ed.
  destruct (each _ 0 ds) as [c0 [u|e]] eqn:Ee; [|discriminate]. injection Ed as <- _.
  assert (Hc' : In c (fst (c0, @Ret unit u))) by exact Hc. rewrite <- Ee in Hc'. destruct (each_in _ c ds 0%nat Hc') as (j & d & Hd & Hin). eapply points_calls in Hin; [|cbn [da_text_size]; reflexivity|cbn [da_text_thickness]; reflexivity].
  destruct Hin as [(q & col & t & ->)|(o & cc & ->)]; [left; eauto|right]. do 4 eexists. split; [reflexivity|]. destruct label_size as [q|].
  - intros Hq. destruct (Qeq_bool q 0) eqn:Eq; [apply Qeq_bool_iff in Eq; contradiction|reflexivity].
  - reflexivity.
Qed.
Lemma tracked_objects_id_size sh p objects radius color s1 s2 id_thickness dp cl dl label_size :
  (0 < fst (fst sh))%Z -> match s1 with Some q => 0 < q | None => True end -> match s2 with Some q => 0 < q | None => True end ->
  match label_size with Some q => ~ q == 0 | None => True end ->
  draw_tracked_objects hash_str rand score_text sh p objects radius color s1 id_thickness dp cl dl label_size =
  draw_tracked_objects hash_str rand score_text sh p objects radius color s2 id_thickness dp cl dl label_size.
Proof.
  intros Hh H1 H2 Hl. unfold draw_tracked_objects. cbv zeta. set (sc := inject_Z (fst (fst sh)) / 100).
  assert (Pos : 0 < sc / 10). { unfold sc. apply Qlt_shift_div_l; [reflexivity|]. apply Qlt_shift_div_l; [reflexivity|]. rewrite !Qmult_0_l. change 0 with (inject_Z 0). rewrite <- Zlt_Qlt. lia. }
  assert (B : forall s : option Q, match s with Some q => 0 < q | None => True end -> Qle_bool (match s with Some q => q | None => sc / 10 end) 0 = false).
  { intros s Hs. destruct (Qle_bool _ 0) eqn:E; [|reflexivity]. apply Qle_bool_iff in E. exfalso. destruct s; eapply Qlt_not_le; eauto. }
  rewrite (B s1 H1), (B s2 H2). set (ls := match label_size with Some s => s | None => _ end). assert (L : Qeq_bool ls 0 = false).
  { destruct (Qeq_bool ls 0) eqn:E; [|reflexivity]. apply Qeq_bool_iff in E. exfalso. unfold ls in E. destruct label_size as [q|]; [contradiction|].
    assert (X : (1 <= trunc (if Qle_bool 1 (sc / 100) then sc / 100 else 1))%Z).
    { destruct (Qle_bool 1 (sc / 100)) eqn:Eb; [|discriminate]. apply Qle_bool_iff in Eb. unfold trunc. destruct (Qle_bool 0 (sc / 100)) eqn:E0.
      - change 1%Z with (Qfloor 1). apply Qfloor_resp_le. exact Eb.
      - assert (Y : 0 <= sc / 100) by (eapply Qle_trans; [|exact Eb]; discriminate). apply Qle_bool_iff in Y. congruence. }
    change 0 with (inject_Z 0) in E. apply (proj1 (inject_Z_injective _ _)) in E. rewrite E in X. lia. }
  rewrite L. reflexivity.
Qed.
Lemma boxes_calls sh p a tc thick k d c :
  In c (fst (box_of_object hash_str rand score_text sh p a tc thick k d)) ->
  (exists p1 p2 col, c = Rectangle p1 p2 col thick) \/
  (exists o z cc t, c = PutText (build_text score_text d (da_labels a) (da_ids a) (da_scores a)) o z cc t) /\ build_text score_text d (da_labels a) (da_ids a) (da_scores a) <> EmptyString.
Proof.
  intros H. unfold box_of_object in H. destruct (object_color _ _ _ _ _ _) as [col|e]; [|destruct H].
  set (boxes := if da_shape_on a then _ else _) in H.
  assert (HB : forall l, boxes = Ret l -> In c l -> exists p1 p2 col, c = Rectangle p1 p2 col thick).
  { unfold boxes. intros l El Hl. destruct (da_shape_on a); [|injection El as <-; destruct Hl]. destruct (nth_error _ 0); [|discriminate]. destruct (nth_error _ 1); [|discriminate].
    injection El as <-. destruct Hl as [<-|[]]. eauto. }
  destruct boxes as [l|e] eqn:Eb; [|destruct H]. cbv zeta in H. destruct (0 <? slen _)%nat eqn:Es; [|left; exact (HB l eq_refl H)].
  destruct (nth_error _ 0) as [[|x [|y ?]]|]; try (left; exact (HB l eq_refl H)). cbn [fst] in H. apply in_app_iff in H as [H|H]; [left; exact (HB l eq_refl H)|].
  right. split.
  - unfold drawer_text in H. cbv zeta in H. destruct H as [<-|[<-|[]]]; eauto.
  - rewrite slen_pos in Es. intros X. rewrite X in Es. discriminate.
Qed.
Lemma tracked_boxes_ids sh p objects color width id_size id_thickness db cl dl label_size label_width cs r :
  draw_tracked_boxes hash_str rand score_text sh p objects color width id_size id_thickness db cl dl label_size label_width = (cs, r) ->
  forall s o z c t, In (PutText s o z c t) cs ->
  exists ds d, objects = Some ds /\ In d ds /\ s <> EmptyString /\
    s = joined [(if dl then label_part d else EmptyString); (if match id_size with Some q => negb (Qle_bool q 0) | None => false end then id_part d else EmptyString)].
Proof.
  intros E s o z c t Hin. unfold draw_tracked_boxes, draw_boxes in E. cbv zeta in E. destruct objects as [ds|]; [|injection E as <- _; destruct Hin]. exists ds.
  cbn [da_text_color parse_opt] in E. set (f := box_of_object _ _ _ _ _ _ _ _) in E. 
  assert (Hc : In (PutText s o z c t) (fst (each f 0 ds))) by (destruct (each f 0%nat ds) as [c0 [u|e]]; injection E as <- _; exact Hin).
  destruct (each_in _ _ ds 0%nat Hc) as (j & d & Hd & Hi). unfold f in Hi. apply boxes_calls in Hi. destruct Hi as [(p1 & p2 & col & X)|((o' & z' & cc & t' & X) & Ne)]; [discriminate|].
  injection X as -> _ _ _ _. exists d. split; [reflexivity|]. split; [exact Hd|]. split; [exact Ne|]. cbn [da_labels da_ids da_scores].
  pose proof (build_text_noscore score_text d dl (match id_size with Some q => negb (Qle_bool q 0) | None => false end)) as B. exact B.
Qed.
Lemma tracked_boxes_args sh p objects color width db cl dl s t :
  draw_tracked_boxes hash_str rand score_text sh p objects color width None None db cl dl None None =
    draw_boxes hash_str rand score_text sh p (MkArgs (if cl then ByLabel else color) width dl false false db None None None) None None objects /\
  (0 < s -> t <> 0%Z ->
   draw_tracked_boxes hash_str rand score_text sh p objects color width (Some s) (Some t) db cl dl None None =
   draw_boxes hash_str rand score_text sh p (MkArgs (if cl then ByLabel else color) width dl true false db None (Some s) (Some t)) None None objects).
Proof.
  split; [reflexivity|]. intros Hs Ht. unfold draw_tracked_boxes. cbv zeta. destruct (Z.eqb_spec t 0); [contradiction|].
  destruct (Qle_bool s 0) eqn:E; [apply Qle_bool_iff in E; exfalso; eapply Qlt_not_le; eauto|reflexivity].
Qed.
Lemma tracked_objects_by_label sh p objects radius color id_size id_thickness dp dl label_size :
  draw_tracked_objects hash_str rand score_text sh p objects radius color id_size id_thickness dp true dl label_size =
  draw_tracked_objects hash_str rand score_text sh p objects radius ByLabel id_size id_thickness dp false dl label_size.
Proof. reflexivity. Qed.
Lemma tracked_objects_args sh p objects radius color thickness dp dl size : (0 < fst (fst sh))%Z -> ~ size == 0 ->
  draw_tracked_objects hash_str rand score_text sh p objects (Some radius) color None (Some thickness) dp false dl (Some size) =
  match draw_points hash_str rand score_text sh p (MkArgs color None dl true false dp None (Some size) (Some thickness)) (Some radius) true None objects with
  | (cs, Ret _) => (cs, Ret Nothing) | r => r end.
Proof.
  intros Hh Hs. unfold draw_tracked_objects. cbv zeta. destruct (Qeq_bool size 0) eqn:E; [apply Qeq_bool_iff in E; contradiction|].
  destruct (Qle_bool _ 0) eqn:El; [|reflexivity]. apply Qle_bool_iff in El. exfalso. revert El. apply Qlt_not_le.
  apply Qlt_shift_div_l; [reflexivity|]. apply Qlt_shift_div_l; [reflexivity|]. rewrite !Qmult_0_l. change 0 with (inject_Z 0). rewrite <- Zlt_Qlt. exact Hh.
Qed.
End D.

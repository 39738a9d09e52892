From Coq Require Import ZArith QArith Qround Qminmax Lqa Bool Arith Ascii String List Lia.
From Verif Require Import Model.Num Model.Base Model.Filter Model.Tracker Model.CameraMotion Model.Images Model.Strings Model.Color Model.Drawing
  Spec.ImageSpec Spec.DrawingSpec Proofs.DistanceProofs Proofs.ImageProofs Proofs.MetricsProofs Proofs.ColorProofs.
Import ListNotations.
Local Open Scope nat_scope.

(* ---- text ---- *)
Lemma slen_pos s : (0 <? slen s) = negb (String.eqb s EmptyString).
Proof. destruct s; reflexivity. Qed.
Lemma join_step t p : p <> EmptyString -> ((if (0 <? slen t)%nat then t ++ "-" else t) ++ p)%string = String.concat "-"%string (filter (fun s => negb (String.eqb s EmptyString)) [t; p]).
Proof.
  intros P. rewrite slen_pos. cbn [filter]. destruct (String.eqb_spec p EmptyString); [contradiction|]. destruct (String.eqb_spec t EmptyString) as [->|]; cbn [negb]; [reflexivity|].
  cbn [String.concat]. rewrite str_app_assoc. reflexivity.
Qed.
Lemma str_of_Z_nonempty z : str_of_Z z <> EmptyString.
Proof.
  unfold str_of_Z. destruct (z <? 0)%Z; [discriminate|]. destruct (pos_digits_head (Z.to_nat (Z.log2 (Z.abs z))) (Z.abs z) EmptyString (Z.abs_nonneg z)) as (d & t & -> & _). discriminate.
Qed.
Lemma build_text_joined score_text d (l i s : bool) : (forall sc, score_text sc <> EmptyString) ->
  build_text score_text d l i s =
  joined [(if l then label_part d else EmptyString); (if i then id_part d else EmptyString); (if s then score_part score_text d else EmptyString)].
Proof.
  intros SC. unfold build_text. set (t1 := if l then label_part d else EmptyString).
  assert (E1 : (if l then match dw_label d with LNone => EmptyString | lb => label_str lb end else EmptyString) = t1) by reflexivity. rewrite E1. clearbody t1. clear E1 l.
  assert (J1 : forall a, joined [a; EmptyString; EmptyString] = a) by (intros []; reflexivity).
  set (ip := if i then id_part d else EmptyString).
  assert (E2 : (if i then match dw_id d with None => t1 | Some n => ((if (0 <? slen t1)%nat then t1 ++ "-" else t1) ++ str_of_Z (Z.of_nat n))%string end else t1) = joined [t1; ip; EmptyString]).
  { subst ip. destruct i; [|symmetry; apply J1]. unfold id_part. destruct (dw_id d); [|symmetry; apply J1]. rewrite join_step by apply str_of_Z_nonempty.
    unfold joined. cbn [filter]. reflexivity. }
  cbv zeta. rewrite E2. destruct s; [|reflexivity]. unfold score_part. destruct (dw_scores d) as [sc|]; [|reflexivity].
  rewrite join_step by apply SC. unfold joined. pose proof (SC sc) as S. set (q := score_text sc) in *. clearbody q ip. clear - S.
  destruct q as [|cq q]; [contradiction|]. destruct t1 as [|c1 t1], ip as [|c2 ip]; cbn [filter String.eqb negb String.concat append]; try reflexivity.
  f_equal. rewrite str_app_assoc. reflexivity.
Qed.

(* ---- the loop ---- *)
Lemma each_concat f ds : forall k cs, each f k ds = (cs, Ret tt) ->
  exists css, cs = concat css /\ length css = length ds /\ forall j d cj, nth_error ds j = Some d -> nth_error css j = Some cj -> f (k + j) d = (cj, Ret tt).
Proof.
  induction ds as [|d ds IH]; intros k cs E.
  - injection E as <-. exists []. repeat split; auto. intros [|]; discriminate.
  - cbn in E. destruct (f k d) as [c0 [[]|e]] eqn:EF; [|discriminate]. destruct (each f (S k) ds) as [c1 r] eqn:ER. injection E as <- ->.
    destruct (IH (S k) c1 ER) as (css & -> & L & H). exists (c0 :: css). split; [reflexivity|]. split; [cbn; congruence|].
    intros [|j] d' cj A B; cbn in A, B.
    + injection A as <-. injection B as <-. rewrite Nat.add_0_r. exact EF.
    + replace (k + S j) with (S k + j) by lia. apply H; assumption.
Qed.
Lemma each_total f ds : (forall k d, In d ds -> exists cs, f k d = (cs, Ret tt)) -> forall k, exists cs, each f k ds = (cs, Ret tt).
Proof.
  induction ds as [|d ds IH]; intros H k; [eexists; reflexivity|]. cbn. destruct (H k d (or_introl eq_refl)) as (c0 & ->).
  destruct (IH (fun k d I => H k d (or_intror I)) (S k)) as (c1 & ->). eexists; reflexivity.
Qed.
Lemma combine_nth_error {A B} (a : list A) (b : list B) x : In x (combine a b) <-> exists i, nth_error a i = Some (fst x) /\ nth_error b i = Some (snd x).
Proof.
  revert b. induction a as [|p a IH]; intros [|q b]; cbn.
  - split; [intros []|intros ([|] & E & _); discriminate].
  - split; [intros []|intros ([|] & E & _); discriminate].
  - split; [intros []|intros ([|] & _ & E); discriminate].
  - rewrite IH. split.
    + intros [<-|(i & E)]; [exists 0; auto|exists (S i); auto].
    + intros ([|i] & E1 & E2); [left; destruct x; cbn in *; congruence|right; eauto].
Qed.
Lemma any_true l : existsb (fun b => b) l = true <-> In true l.
Proof. rewrite existsb_exists. split; [intros (b & I & ->); exact I|intros I; eauto]. Qed.
Lemma column_means_live d x y : column_means (select (dw_live d) (dw_points d)) = Some (x, y) -> mean_live d 0 x /\ mean_live d 1 y.
Proof.
  unfold column_means, mean_live. set (l := select _ _). destruct l as [|r l']; [discriminate|]. intros E. injection E as <- <-.
  assert (NZ : ~ (inject_Z (Z.of_nat (length (r :: l'))) == 0)%Q) by (change 0%Q with (inject_Z 0); rewrite inject_Z_injective; cbn [length]; lia).
  split; (split; [discriminate|]); rewrite Qmult_comm; apply Qmult_div_r; exact NZ.
Qed.
Lemma select_live mask (ps : list (list Q)) : length mask = length ps -> In true mask -> select mask ps <> [].
Proof.
  revert ps. induction mask as [|b mask IH]; intros [|p ps] L I; try discriminate; [destruct I|]. unfold select in *. cbn. destruct b; [discriminate|].
  cbn. apply IH; [cbn in L; lia|destruct I; [discriminate|assumption]].
Qed.

Section D.
Context (hash_str : string -> Z) (rand : nat -> Z) (score_text : list Q -> string).
Notation obj_color := (object_color hash_str rand).

Lemma color_ok p a k d : pa_colors p <> [] -> (forall c, a = Fixed c -> exists v, parse_color c = Ret v) -> exists v, obj_color p a k d = Ret v.
Proof.
  intros NE F. assert (C : forall h, exists v, choose_color p h = Ret v).
  { intros [h|]; [destruct (choose_in p h NE) as (c & E & _); eauto|eexists; reflexivity]. }
  destruct a; cbn [object_color]; auto.
Qed.

Lemma points_circle sh p a tc radius th hide k d cs :
  points_of_object hash_str rand score_text sh p a tc radius th hide k d = (cs, Ret tt) ->
  forall c r col t, In (Circle c r col t) cs <->
    da_shape_on a = true /\ (hide = true -> has_live d) /\ r = radius /\ t = th /\ obj_color p (da_color a) k d = Ret col /\ exists row, shown hide d row /\ c = int_point row.
Proof.
  intros E c r col t. unfold points_of_object in E.
  destruct (hide && negb (existsb (fun b => b) (dw_live d))) eqn:H0.
  { injection E as <-. split; [intros []|]. intros (_ & HL & _). apply andb_true_iff in H0. destruct H0 as [-> H0]. apply negb_true_iff in H0.
    specialize (HL eq_refl). apply any_true in HL. congruence. }
  assert (HL : hide = true -> has_live d). { intros ->. cbn in H0. apply negb_false_iff in H0. apply any_true, H0. }
  destruct (obj_color p (da_color a) k d) as [oc|e] eqn:EC; [|discriminate].
  set (circles := if da_shape_on a then _ else _) in E.
  assert (G : In (Circle c r col t) circles <-> da_shape_on a = true /\ r = radius /\ t = th /\ col = oc /\ exists row, shown hide d row /\ c = int_point row).
  { subst circles. destruct (da_shape_on a); [|split; [intros []|intros [? _]; discriminate]]. rewrite in_map_iff. split.
    - intros ([row live] & X & Y). injection X as <- <- <- <-. apply filter_In in Y. destruct Y as [Y Z0]. apply combine_nth_error in Y. destruct Y as (i & Y1 & Y2). cbn in *.
      repeat (split; [reflexivity|]). exists row. split; [|reflexivity]. exists i. split; [exact Y1|]. destruct live; [left; exact Y2|right]. cbn in Z0. apply negb_true_iff in Z0. auto.
    - intros (_ & -> & -> & -> & row & (i & S1 & S2) & ->).
      assert (L : exists live, nth_error (dw_live d) i = Some live /\ (live || negb hide) = true) by (destruct S2 as [S2|[-> S2]]; eexists; split; try exact S2; reflexivity).
      destruct L as (live & L1 & L2). exists (row, live). split; [reflexivity|]. apply filter_In. split; [|exact L2]. apply combine_nth_error. exists i. auto. }
  assert (T : forall cs', (forall x, In x cs' -> forall c r col t, x <> Circle c r col t) -> In (Circle c r col t) (circles ++ cs') <-> In (Circle c r col t) circles).
  { intros cs' N. rewrite in_app_iff. split; [intros [X|X]; [exact X|exfalso; eapply N; eauto]|auto]. }
  assert (F : In (Circle c r col t) cs <-> In (Circle c r col t) circles).
  { destruct (da_labels a || da_ids a || da_scores a); [|injection E as <-; reflexivity]. destruct (Nat.eqb _ _); [|discriminate].
    destruct (column_means _) as [[x y]|]; [|injection E as <-; reflexivity]. injection E as <-. apply T. intros z [<-|[<-|[]]]; discriminate. }
  rewrite F, G. split.
  - intros (A & B & C & D & F0). subst col. auto 10.
  - intros (A & _ & B & C & D & F0). injection D as <-. auto 10.
Qed.

Lemma filter_none {A} (f : A -> bool) l : (forall x, In x l -> f x = false) -> filter f l = [].
Proof. induction l as [|a l IH]; intros H; [reflexivity|]. cbn. rewrite (H a (or_introl eq_refl)). apply IH. intros x I. apply H. right; exact I. Qed.
Lemma drawer_text_drawn sh s pos size col th : drawer_text sh s pos size col th = drawn_text sh s pos size col th.
Proof.
  unfold drawer_text, drawn_text. destruct pos as [x y]. cbn [fst snd]. set (q := (inject_Z (max_shape sh) / 4000)%Q).
  assert (A : forall a b : Q, (if Qle_bool b a then a else b) = Qmax a b).
  { intros a b. unfold Qmax, GenericMinMax.gmax. destruct (Qle_bool b a) eqn:E; destruct (Qcompare_spec a b) as [C|C|C]; try reflexivity.
    - apply Qle_bool_iff in E. exfalso. eapply Qlt_not_le; eauto.
    - exfalso. assert (X : Qle_bool b a = true) by (apply Qle_bool_iff; rewrite C; apply Qle_refl). congruence.
    - exfalso. assert (X : Qle_bool b a = true) by (apply Qle_bool_iff, Qlt_le_weak, C). congruence. }
  assert (B : forall a b : Q, (if Qle_bool a b then a else b) = Qmin a b).
  { intros a b. unfold Qmin, GenericMinMax.gmin. destruct (Qle_bool a b) eqn:E; destruct (Qcompare_spec a b) as [C|C|C]; try reflexivity.
    - apply Qle_bool_iff in E. exfalso. eapply Qlt_not_le; eauto.
    - exfalso. assert (X : Qle_bool a b = true) by (apply Qle_bool_iff; rewrite C; apply Qle_refl). congruence.
    - exfalso. assert (X : Qle_bool a b = true) by (apply Qle_bool_iff, Qlt_le_weak, C). congruence. }
  cbv zeta. rewrite A, B. reflexivity.
Qed.
Lemma points_text sh p a tc radius th hide k d cs :
  points_of_object hash_str rand score_text sh p a tc radius th hide k d = (cs, Ret tt) -> has_live d ->
  if da_labels a || da_ids a || da_scores a then
    exists x y col, mean_live d 0 x /\ mean_live d 1 y /\ obj_color p (da_color a) k d = Ret col /\
    filter is_text cs = drawn_text sh (build_text score_text d (da_labels a) (da_ids a) (da_scores a)) (trunc (x - inject_Z radius), trunc (y - inject_Z radius)) (da_text_size a)
            (match tc with Some c => c | None => col end) (da_text_thickness a)
  else filter is_text cs = [].
Proof.
  intros E HL. unfold points_of_object in E. rewrite (proj2 (any_true _) HL), andb_false_r in E.
  destruct (obj_color p (da_color a) k d) as [oc|e] eqn:EC; [|discriminate]. set (circles := if da_shape_on a then _ else _) in E.
  assert (NT : filter is_text circles = []).
  { apply filter_none. intros c I. subst circles. destruct (da_shape_on a); [|destruct I]. apply in_map_iff in I. destruct I as (? & <- & _). reflexivity. }
  destruct (da_labels a || da_ids a || da_scores a); [|injection E as <-; exact NT].
  destruct (Nat.eqb_spec (length (dw_live d)) (length (dw_points d))) as [LN|]; [|discriminate].
  destruct (column_means (select (dw_live d) (dw_points d))) as [[x y]|] eqn:EM.
  - injection E as <-. exists x, y, oc. destruct (column_means_live d x y EM). repeat (split; [assumption||reflexivity|]). rewrite filter_app, NT, drawer_text_drawn. reflexivity.
  - exfalso. pose proof (select_live (dw_live d) (dw_points d) LN HL) as N. unfold column_means in EM. destruct (select _ _); [contradiction|discriminate].
Qed.

Lemma texts_last_app a b : (forall c, In c a -> is_text c = false) -> (forall c, In c b -> is_text c = true) -> texts_last (a ++ b).
Proof.
  intros A B. unfold texts_last. rewrite !filter_app, (filter_none is_text a A), (filter_none _ b) by (intros c I; rewrite (B c I); reflexivity).
  rewrite app_nil_r. cbn [app]. f_equal; [|].
  - clear B. induction a as [|c a IH]; [reflexivity|]. cbn. rewrite (A c (or_introl eq_refl)). cbn. f_equal. apply IH. intros x I. apply A. right; exact I.
  - clear A. induction b as [|c b IH]; [reflexivity|]. cbn. rewrite (B c (or_introl eq_refl)). f_equal. apply IH. intros x I. apply B. right; exact I.
Qed.
Lemma texts_last_shapes a : (forall c, In c a -> is_text c = false) -> texts_last a.
Proof. intros A. rewrite <- (app_nil_r a). apply texts_last_app; [exact A|intros c []]. Qed.
Lemma points_texts_last sh p a tc radius th hide k d cs :
  points_of_object hash_str rand score_text sh p a tc radius th hide k d = (cs, Ret tt) -> texts_last cs.
Proof.
  intros E. unfold points_of_object in E. destruct (hide && _); [injection E as <-; reflexivity|]. destruct (obj_color p (da_color a) k d) as [oc|e]; [|discriminate].
  set (circles := if da_shape_on a then _ else _) in E.
  assert (NT : forall c, In c circles -> is_text c = false).
  { intros c I. subst circles. destruct (da_shape_on a); [|destruct I]. apply in_map_iff in I. destruct I as (? & <- & _). reflexivity. }
  destruct (_ || _); [|injection E as <-; apply texts_last_shapes, NT]. destruct (Nat.eqb _ _); [|discriminate].
  destruct (column_means _) as [[x y]|]; injection E as <-; [|apply texts_last_shapes, NT]. apply texts_last_app; [exact NT|]. intros c [<-|[<-|[]]]; reflexivity.
Qed.

Lemma points_ok sh p a tc radius th hide k d : pa_colors p <> [] -> (forall c, da_color a = Fixed c -> exists v, parse_color c = Ret v) -> length (dw_live d) = length (dw_points d) ->
  exists cs, points_of_object hash_str rand score_text sh p a tc radius th hide k d = (cs, Ret tt).
Proof.
  intros NE F L. unfold points_of_object. destruct (_ && _); [eexists; reflexivity|]. destruct (color_ok p (da_color a) k d NE F) as (v & ->).
  destruct (_ || _); [|eexists; reflexivity]. rewrite (proj2 (Nat.eqb_eq _ _) L). destruct (column_means _) as [[x y]|]; eexists; reflexivity.
Qed.

Lemma draw_points_spec sh p a radius hide ds cs r :
  draw_points hash_str rand score_text sh p a radius hide None (Some ds) = (cs, Ret r) ->
  r = TheFrame /\ exists tc css, parse_opt (da_text_color a) = Ret tc /\ cs = concat css /\ length css = length ds /\
  forall k d ck, nth_error ds k = Some d -> nth_error css k = Some ck ->
    (forall c rad col t, In (Circle c rad col t) ck <->
       da_shape_on a = true /\ (hide = true -> has_live d) /\ rad = the_radius sh radius /\ t = point_thickness a /\ obj_color p (da_color a) k d = Ret col /\
       exists row, shown hide d row /\ c = int_point row) /\
    (has_live d ->
     if da_labels a || da_ids a || da_scores a then
       exists x y col, mean_live d 0 x /\ mean_live d 1 y /\ obj_color p (da_color a) k d = Ret col /\
       let R := inject_Z (the_radius sh radius) in
       filter is_text ck = drawn_text sh (build_text score_text d (da_labels a) (da_ids a) (da_scores a)) (trunc (x - R), trunc (y - R)) (da_text_size a)
            (match tc with Some c => c | None => col end) (da_text_thickness a)
     else filter is_text ck = []) /\
    texts_last ck.
Proof.
  unfold draw_points. intros E. destruct (parse_opt (da_text_color a)) as [tc|e]; [|discriminate]. cbv zeta in E. fold (the_radius sh radius) in E. fold (point_thickness a) in E.
  destruct (each _ 0 ds) as [c0 [[]|e]] eqn:EE; [|discriminate]. injection E as <- <-. split; [reflexivity|]. exists tc.
  destruct (each_concat _ _ _ _ EE) as (css & -> & L & H). exists css. repeat (split; [assumption||reflexivity|]). intros k d ck A B. specialize (H k d ck A B). cbn [Nat.add] in H. split; [|split].
  - exact (points_circle _ _ _ _ _ _ _ _ _ _ H).
  - intros HL. exact (points_text _ _ _ _ _ _ _ _ _ _ H HL).
  - exact (points_texts_last _ _ _ _ _ _ _ _ _ _ H).
Qed.
Lemma draw_points_total sh p a radius hide ds : pa_colors p <> [] ->
  (forall c, da_color a = Fixed c -> exists v, parse_color c = Ret v) -> (forall c, da_text_color a = Some c -> exists v, parse_color c = Ret v) ->
  (forall d, In d ds -> length (dw_live d) = length (dw_points d)) ->
  exists cs, draw_points hash_str rand score_text sh p a radius hide None (Some ds) = (cs, Ret TheFrame).
Proof.
  intros NE F T L. unfold draw_points. assert (PO : exists tc, parse_opt (da_text_color a) = Ret tc).
  { unfold parse_opt. destruct (da_text_color a) as [c|]; [|eexists; reflexivity]. destruct (T c eq_refl) as (v & ->). eexists; reflexivity. }
  destruct PO as (tc & ->). cbv zeta. edestruct each_total as (cs & ->); [|eexists; reflexivity]. intros k d I. apply points_ok; auto.
Qed.
(* ---- boxes ---- *)
Lemma box_calls sh p a tc th k d cs : box_of_object hash_str rand score_text sh p a tc th k d = (cs, Ret tt) ->
  exists col, obj_color p (da_color a) k d = Ret col /\
  (forall p1 p2 c t, In (Rectangle p1 p2 c t) cs <-> da_shape_on a = true /\ t = th /\ c = col /\
     exists r1 r2, nth_error (dw_points d) 0 = Some r1 /\ nth_error (dw_points d) 1 = Some r2 /\ p1 = int_point r1 /\ p2 = int_point r2) /\
    (let s := build_text score_text d (da_labels a) (da_ids a) (da_scores a) in
     (s = EmptyString -> filter is_text cs = []) /\
     (s <> EmptyString -> exists x y rest, nth_error (dw_points d) 0 = Some (x :: y :: rest) /\
        filter is_text cs = drawn_text sh s (trunc x - th / 2, trunc y - th / 2 - 1)%Z (da_text_size a) (match tc with Some c => c | None => col end) (da_text_thickness a))) /\
    texts_last cs.
Proof.
  unfold box_of_object. cbv zeta. intros E. destruct (obj_color p (da_color a) k d) as [col|e] eqn:EC; [|discriminate]. exists col. split; [reflexivity|].
  set (text := build_text score_text d (da_labels a) (da_ids a) (da_scores a)) in *.
  assert (R : exists c0, (if da_shape_on a then match nth_error (map int_point (dw_points d)) 0, nth_error (map int_point (dw_points d)) 1 with Some p1, Some p2 => Ret [Rectangle p1 p2 col th] | _, _ => Raise EIndexError end else Ret []) = Ret c0 /\
     forall p1 p2 c t, In (Rectangle p1 p2 c t) c0 <-> da_shape_on a = true /\ t = th /\ c = col /\
     exists r1 r2, nth_error (dw_points d) 0 = Some r1 /\ nth_error (dw_points d) 1 = Some r2 /\ p1 = int_point r1 /\ p2 = int_point r2).
  { destruct (da_shape_on a).
    - destruct (dw_points d) as [|r1 [|r2 rest]] eqn:EP; [discriminate|discriminate|]. cbn [map nth_error].
      eexists. split; [reflexivity|]. cbn. intros p1 p2 c t. split.
      + intros [X|[]]. injection X as <- <- <- <-. repeat (split; [reflexivity|]). exists r1, r2. auto.
      + intros (_ & -> & -> & r1' & r2' & X & Y & -> & ->). injection X as <-. injection Y as <-. left; reflexivity.
    - eexists. split; [reflexivity|]. intros. split; [intros []|intros (? & _); discriminate]. }
  assert (NT : forall c0 c, (if da_shape_on a then match nth_error (map int_point (dw_points d)) 0, nth_error (map int_point (dw_points d)) 1 with Some p1, Some p2 => Ret [Rectangle p1 p2 col th] | _, _ => Raise EIndexError end else Ret []) = Ret c0 -> In c c0 -> is_text c = false).
  { intros c0 c. destruct (da_shape_on a); [|intros X; injection X as <-; intros []].
    destruct (nth_error _ 0), (nth_error _ 1); try discriminate. intros X; injection X as <-. intros [<-|[]]; reflexivity. }
  destruct R as (c0 & R1 & R2). specialize (NT c0). rewrite R1 in E, NT. specialize (fun c => NT c eq_refl). rewrite slen_pos in E.
  destruct (String.eqb_spec text EmptyString) as [TE|TE]; cbn [negb] in E.
  - injection E as <-. split; [exact R2|]. split; [|apply texts_last_shapes, NT]. split; [intros _; apply filter_none, NT|contradiction].
  - destruct (dw_points d) as [|[|x [|y rest]] ps] eqn:EP; cbn [map nth_error int_point] in E; try discriminate. injection E as <-. split; [|split; [split; [contradiction|]|]].
    + intros. rewrite in_app_iff, R2. split; [intros [X|[X|[X|[]]]]; [exact X|discriminate|discriminate]|auto].
    + intros _. exists x, y, rest. split; [reflexivity|]. rewrite filter_app, (filter_none _ _ NT), drawer_text_drawn. reflexivity.
    + apply texts_last_app; [exact NT|]. intros c [<-|[<-|[]]]; reflexivity.
Qed.
Lemma draw_boxes_spec sh p a ds cs r :
  draw_boxes hash_str rand score_text sh p a None None (Some ds) = (cs, Ret r) ->
  r = TheFrame /\ exists tc css, parse_opt (da_text_color a) = Ret tc /\ cs = concat css /\ length css = length ds /\
  forall k d ck, nth_error ds k = Some d -> nth_error css k = Some ck ->
    exists col, obj_color p (da_color a) k d = Ret col /\
    (forall p1 p2 c t, In (Rectangle p1 p2 c t) ck <-> da_shape_on a = true /\ t = box_thickness sh a /\ c = col /\
       exists r1 r2, nth_error (dw_points d) 0 = Some r1 /\ nth_error (dw_points d) 1 = Some r2 /\ p1 = int_point r1 /\ p2 = int_point r2) /\
    (let s := build_text score_text d (da_labels a) (da_ids a) (da_scores a) in
     (s = EmptyString -> filter is_text ck = []) /\
     (s <> EmptyString -> exists x y rest, nth_error (dw_points d) 0 = Some (x :: y :: rest) /\
        filter is_text ck = drawn_text sh s (trunc x - box_thickness sh a / 2, trunc y - box_thickness sh a / 2 - 1)%Z (da_text_size a) (match tc with Some c => c | None => col end) (da_text_thickness a))) /\
    texts_last ck.
Proof.
  unfold draw_boxes. intros E. destruct (parse_opt (da_text_color a)) as [tc|e]; [|discriminate]. cbv zeta in E. cbn [da_thickness] in E. fold (box_thickness sh a) in E.
  destruct (each _ 0 ds) as [c0 [[]|e]] eqn:EE; [|discriminate]. injection E as <- <-. split; [reflexivity|]. exists tc.
  destruct (each_concat _ _ _ _ EE) as (css & -> & L & H). exists css. repeat (split; [assumption||reflexivity|]). intros k d ck A B. specialize (H k d ck A B). cbn [Nat.add] in H.
  exact (box_calls _ _ _ _ _ _ _ _ H).
Qed.
Lemma draw_boxes_total sh p a ds : pa_colors p <> [] ->
  (forall c, da_color a = Fixed c -> exists v, parse_color c = Ret v) -> (forall c, da_text_color a = Some c -> exists v, parse_color c = Ret v) ->
  (forall d, In d ds -> exists x y rest r2 rest2, dw_points d = (x :: y :: rest) :: r2 :: rest2) ->
  exists cs, draw_boxes hash_str rand score_text sh p a None None (Some ds) = (cs, Ret TheFrame).
Proof.
  intros NE F T L. unfold draw_boxes. assert (PO : exists tc, parse_opt (da_text_color a) = Ret tc).
  { unfold parse_opt. destruct (da_text_color a) as [c|]; [|eexists; reflexivity]. destruct (T c eq_refl) as (v & ->). eexists; reflexivity. }
  destruct PO as (tc & ->). cbv zeta. edestruct each_total as (cs & ->); [|eexists; reflexivity]. intros k d I. unfold box_of_object. cbn [da_color].
  destruct (color_ok p (da_color a) k d NE F) as (v & ->). destruct (L d I) as (x & y & rest & r2 & rest2 & EP). rewrite EP. cbn [map nth_error int_point da_shape_on]. destruct (da_shape_on a); match goal with |- context [if ?b then _ else _] => destruct b end; eexists; reflexivity.
Qed.
Lemma each_dead f d before after : (forall k, f k d = ([], Ret tt)) -> (forall k k' x, f k x = f k' x) ->
  forall k, each f k (before ++ d :: after) = each f k (before ++ after).
Proof.
  intros D K. assert (SH : forall ds k k', each f k ds = each f k' ds).
  { induction ds as [|x ds IH]; intros k k'; [reflexivity|]. cbn. rewrite (K k k' x). destruct (f k' x) as [c [[]|e]]; [|reflexivity]. rewrite (IH (S k) (S k')). reflexivity. }
  induction before as [|x before IH]; intros k; cbn [app each].
  - rewrite D, (SH after (S k) k). destruct (each f k after). reflexivity.
  - destruct (f k x) as [c [[]|e]]; [|reflexivity]. rewrite IH. reflexivity.
Qed.
Lemma draw_points_dead sh p a radius color_by_label d before after :
  ~ has_live d -> match da_color a, color_by_label with Random, None => False | _, _ => True end ->
  draw_points hash_str rand score_text sh p a radius true color_by_label (Some (before ++ d :: after)) =
  draw_points hash_str rand score_text sh p a radius true color_by_label (Some (before ++ after)).
Proof.
  intros D NR. unfold draw_points. destruct (parse_opt (da_text_color a)) as [tc|e]; [|reflexivity]. cbv zeta. rewrite each_dead; [reflexivity| |].
  - intros k. unfold points_of_object. destruct (existsb (fun b => b) (dw_live d)) eqn:E; [apply any_true in E; contradiction|]. reflexivity.
  - intros k k' x. unfold points_of_object. destruct color_by_label as [b|]; [reflexivity|]. destruct (da_color a); [reflexivity..|destruct NR|reflexivity].
Qed.
Lemma draw_points_quirks sh p a radius hide ds b :
  draw_points hash_str rand score_text sh p a radius hide None None = ([], Ret Nothing) /\
  draw_points hash_str rand score_text sh p a radius hide (Some b) ds = draw_points hash_str rand score_text sh p (with_color ByLabel a) radius hide None ds.
Proof. split; reflexivity. Qed.
Lemma draw_boxes_quirks sh p a ds b r :
  draw_boxes hash_str rand score_text sh p a r (Some b) ds = draw_boxes hash_str rand score_text sh p (with_color ByLabel a) None None ds /\
  draw_boxes hash_str rand score_text sh p a (Some b) None ds = draw_boxes hash_str rand score_text sh p (with_color Random a) None None ds.
Proof. split; destruct ds; reflexivity. Qed.

(* ---- the colors of objects ---- *)
Lemma object_colors p k k' d d' :
  (forall i, dw_id d = Some i -> (Z.of_nat i < hash_modulus)%Z -> forall c, In c [ById; ByNone] -> pa_colors p <> [] ->
     exists v, nth_error (pa_colors p) (i mod length (pa_colors p)) = Some v /\ object_color hash_str rand p c k d = Ret v) /\
  (dw_id d = None -> forall c, In c [ById; ByNone] -> object_color hash_str rand p c k d = Ret (pa_default p)) /\
  (dw_label d = dw_label d' -> object_color hash_str rand p ByLabel k d = object_color hash_str rand p ByLabel k' d') /\
  (dw_label d = LNone -> object_color hash_str rand p ByLabel k d = Ret (pa_default p)) /\
  (forall z, dw_label d = LInt z -> (0 <= z < hash_modulus)%Z -> pa_colors p <> [] ->
     exists v, nth_error (pa_colors p) (Z.to_nat z mod length (pa_colors p)) = Some v /\ object_color hash_str rand p ByLabel k d = Ret v) /\
  (forall c, object_color hash_str rand p (Fixed c) k d = parse_color c).
Proof.
  assert (X : forall z, (0 <= z < hash_modulus)%Z -> pa_colors p <> [] ->
     exists v, nth_error (pa_colors p) (Z.to_nat z mod length (pa_colors p)) = Some v /\ choose_color p (Some (hash_int z)) = Ret v).
  { intros z Hz Hne. assert (Eh : hash_int z = z).
    { unfold hash_int. rewrite Z.abs_eq, Z.mod_small by lia. destruct (Z.eq_dec z 0) as [->|]; [reflexivity|]. rewrite Z.sgn_pos, Z.mul_1_l by lia. destruct (Z.eqb_spec z (-1)); [lia|reflexivity]. }
    rewrite Eh. unfold choose_color. destruct (length (pa_colors p)) as [|m] eqn:El; [destruct (pa_colors p); [congruence|discriminate]|]. rewrite Z.abs_eq by lia.
    replace (Z.to_nat (z mod Z.of_nat (S m))) with (Z.to_nat z mod S m)%nat by (rewrite <- (Nat2Z.id (Z.to_nat z mod S m)), Nat2Z.inj_mod, Z2Nat.id by lia; reflexivity).
    destruct (nth_error (pa_colors p) (Z.to_nat z mod S m)) as [v|] eqn:En; [eauto|]. apply nth_error_None in En. pose proof (Nat.mod_upper_bound (Z.to_nat z) (S m)). lia. }
  split; [|split; [|split; [|split; [|split]]]].
  - intros i Ei Hi c Hc Hne. destruct (X (Z.of_nat i) ltac:(lia) Hne) as (v & V1 & V2). rewrite Nat2Z.id in V1. exists v. split; [exact V1|].
    destruct Hc as [<-|[<-|[]]]; cbn; rewrite Ei; exact V2.
  - intros Ei c [<-|[<-|[]]]; cbn; rewrite Ei; reflexivity.
  - intros E. cbn. rewrite E. reflexivity.
  - intros E. cbn. rewrite E. reflexivity.
  - intros z E Hz Hne. cbn. rewrite E. exact (X z Hz Hne).
  - reflexivity.
Qed.

End D.

(* ---- the grid ---- *)
Lemma grid_spec w h ct grid radius th col :
  let pts := match ct with None => grid | Some t => ct_abs_to_rel t grid end in
  forall c, In c (draw_absolute_grid w h ct grid radius th col) <->
  exists x y, In [x; y] pts /\ (0 <= x <= inject_Z w)%Q /\ (0 <= y <= inject_Z h)%Q /\
    (c = Line [trunc x; trunc y - radius]%Z [trunc x; trunc y + radius]%Z col th \/ c = Line [trunc x - radius; trunc y]%Z [trunc x + radius; trunc y]%Z col th).
Proof.
  intros pts c. unfold draw_absolute_grid. fold pts. rewrite in_flat_map. split.
  - intros (r & I & H). destruct r as [|x [|y [|? ?]]]; try destruct H.
    destruct (Qle_bool x (inject_Z w) && Qle_bool y (inject_Z h) && Qle_bool 0 x && Qle_bool 0 y) eqn:B; [|destruct H].
    rewrite !andb_true_iff, !Qle_bool_iff in B. exists x, y. cbn [cross In] in H. intuition auto.
  - intros (x & y & I & X & Y & H). exists [x; y]. split; [exact I|]. assert (B : Qle_bool x (inject_Z w) && Qle_bool y (inject_Z h) && Qle_bool 0 x && Qle_bool 0 y = true) by (rewrite !andb_true_iff, !Qle_bool_iff; tauto).
    rewrite B. cbn [cross In]. intuition auto.
Qed.

(* ---- AbsolutePaths ---- *)
Lemma eq_id_spec a b : reflect (a = b) (eq_id a b).
Proof. destruct a as [x|], b as [y|]; cbn; try (constructor; congruence). destruct (Nat.eqb_spec x y); constructor; congruence. Qed.
Lemma history_set h i l j : history (set_history h i l) j = if eq_id i j then l else history h j.
Proof.
  induction h as [|[a q] h IH]; cbn; [reflexivity|]. destruct (eq_id_spec a i) as [->|N]; cbn.
  - destruct (eq_id i j); reflexivity.
  - rewrite IH. destruct (eq_id_spec a j) as [->|]; [|reflexivity]. destruct (eq_id_spec i j); [congruence|reflexivity].
Qed.
Lemma alphas_length n : length (alphas n) = n.
Proof. unfold alphas. rewrite map_length, seq_length. reflexivity. Qed.
Lemma lines_ok : forall pts last, length pts = length last -> lines_between last pts = Ret (combine (map int_point last) (map int_point pts)).
Proof. induction pts as [|q pts IH]; intros [|l last] E; try discriminate; [reflexivity|]. cbn. rewrite IH by (injection E as E; exact E). reflexivity. Qed.
Lemma overlays_ok f n m past : (forall p, length (f p) = length p) -> forall i last, length last = m -> Forall (fun p => length p = m) past -> i + length past <= n ->
  overlays f (alphas n) i last past =
  (map (fun kab => POverlay (combine (map int_point (f (fst (snd kab)))) (map int_point (f (snd (snd kab))))) (nth (fst kab) (alphas n) 0%Q)) (consecutive i (last :: past)), Ret tt).
Proof.
  intros FL. induction past as [|q past IH]; intros i last LM F B; [reflexivity|]. inversion F; subst. cbn [overlays]. rewrite lines_ok by (rewrite !FL; congruence).
  cbn [length] in B. destruct (nth_error (alphas n) i) as [a|] eqn:EA; [|apply nth_error_None in EA; rewrite alphas_length in EA; lia].
  rewrite IH; [|congruence|assumption|lia]. cbn [consecutive map fst snd]. rewrite (nth_error_nth _ _ _ EA). reflexivity.
Qed.
Lemma flat_map_same {A B} (f g : A -> list B) l : (forall a, In a l -> f a = g a) -> flat_map f l = flat_map g l.
Proof. induction l as [|a l IH]; intros H; [reflexivity|]. cbn. rewrite (H a (or_introl eq_refl)), IH; [reflexivity|]. intros b I. apply H. right. exact I. Qed.
Lemma absolute_draw_ok n m t objs : (forall p, length (ct_abs_to_rel t p) = length p) -> Forall (fun o => alive o = true -> length (po_points o) = m) objs ->
  forall h, good_histories n m h ->
  exists h' st, absolute_draw n (Some t) objs h = (h', (st, Ret tt)) /\ good_histories n m h' /\
    (forall i, history h' i = firstn n (rev (map po_points (filter (fun o => alive o && eq_id (po_id o) i) objs)) ++ history h i)) /\
    (NoDup (map po_id (filter alive objs)) -> st = flat_map (fun o => trace n (ct_abs_to_rel t) (history h (po_id o)) o) (filter alive objs)).
Proof.
  intros FL. induction objs as [|o objs IH]; intros F h G; inversion F; subst.
  - exists h, []. split; [reflexivity|]. split; [exact G|]. split; [|reflexivity]. intros i. cbn. symmetry. apply firstn_all2, G.
  - cbn [absolute_draw]. fold (alive o). destruct (alive o) eqn:A; cbn [negb].
    + assert (LP : length (po_points o) = m) by auto.
      rewrite (overlays_ok (ct_abs_to_rel t) n m (history h (po_id o)) FL 0 (po_points o) LP (proj2 (G _))) by apply G.
      set (h1 := set_history h (po_id o) (firstn n (po_points o :: history h (po_id o)))).
      assert (G1 : good_histories n m h1).
      { intros i. unfold h1. rewrite history_set. destruct (eq_id_spec (po_id o) i) as [<-|N]; [|apply G]. split.
        - rewrite firstn_length. lia.
        - apply Forall_forall. intros x I. assert (J : In x (po_points o :: history h (po_id o))) by (rewrite <- (firstn_skipn n); apply in_or_app; left; exact I).
          destruct J as [<-|J]; [exact LP|]. destruct (G (po_id o)) as [_ GF]. rewrite Forall_forall in GF. auto. }
      destruct (IH H2 h1 G1) as (h' & st & E & G' & HH & ST). rewrite E. do 2 eexists. split; [reflexivity|]. split; [exact G'|]. split.
      * intros i. rewrite HH. unfold h1. rewrite history_set. cbn [filter]. rewrite A. cbn [andb]. destruct (eq_id_spec (po_id o) i) as [<-|N]; [|reflexivity].
        cbn [map rev]. rewrite <- app_assoc. cbn [app]. rewrite !firstn_app. f_equal. rewrite firstn_firstn. f_equal. lia.
      * cbn [filter]. rewrite A. cbn [map flat_map]. intros ND. inversion ND as [|? ? NI ND']; subst. rewrite (ST ND'). unfold trace at 2. rewrite <- app_assoc. do 2 f_equal.
        apply flat_map_same. intros o' I'. f_equal. unfold h1. rewrite history_set. destruct (eq_id_spec (po_id o) (po_id o')) as [E'|]; [|reflexivity].
        exfalso. apply NI. rewrite E'. apply in_map, I'.
    + destruct (IH H2 h G) as (h' & st & E & G' & HH & ST). exists h', st. split; [exact E|]. split; [exact G'|]. split.
      * intros i. cbn [filter]. rewrite A. cbn [andb]. apply HH.
      * cbn [filter]. rewrite A. exact ST.
Qed.
Lemma absolute_run_ok n m calls : Forall (good_call m) calls -> forall h, good_histories n m h ->
  exists h', absolute_run n calls h = (h', Ret tt) /\ good_histories n m h' /\ forall i, history h' i = firstn n (rev (trail i calls) ++ history h i).
Proof.
  induction 1 as [|[ct objs] calls (t & E & FL & FO) F IH]; intros h G.
  - exists h. split; [reflexivity|]. split; [exact G|]. intros i. symmetry. apply firstn_all2, G.
  - cbn in E. subst ct. cbn [absolute_run]. destruct (absolute_draw_ok n m t objs FL FO h G) as (h1 & st & -> & G1 & H1 & _).
    destruct (IH h1 G1) as (h' & -> & G' & H'). exists h'. split; [reflexivity|]. split; [exact G'|]. intros i. rewrite H', H1. unfold trail. cbn [flat_map snd].
    rewrite rev_app_distr, <- app_assoc, (firstn_app n), (firstn_app n (rev (flat_map _ _))). f_equal. rewrite firstn_firstn. f_equal. lia.
Qed.
Lemma good_nil n m : good_histories n m [].
Proof. intros i. cbn. split; [lia|constructor]. Qed.
Lemma absolute_run_new n m calls : Forall (good_call m) calls ->
  exists h', absolute_run n calls [] = (h', Ret tt) /\ forall i, history h' i = firstn n (rev (trail i calls)).
Proof.
  intros F. destruct (absolute_run_ok n m calls F [] (good_nil n m)) as (h' & E & _ & H). exists h'. split; [exact E|]. intros i. rewrite H. cbn [history]. rewrite app_nil_r. reflexivity.
Qed.
Lemma absolute_drawn n m calls t objs : Forall (good_call m) calls -> good_call m (Some t, objs) -> NoDup (map po_id (filter alive objs)) ->
  exists h h' st, absolute_run n calls [] = (h, Ret tt) /\ absolute_draw n (Some t) objs h = (h', (st, Ret tt)) /\
  st = flat_map (fun o => trace n (ct_abs_to_rel t) (firstn n (rev (trail (po_id o) calls))) o) (filter alive objs).
Proof.
  intros F (t' & E & FL & FO) ND. cbn in E. injection E as <-. destruct (absolute_run_ok n m calls F [] (good_nil n m)) as (h & E & G & H).
  destruct (absolute_draw_ok n m t objs FL FO h G) as (h' & st & E' & _ & _ & S). exists h, h', st. split; [exact E|]. split; [exact E'|]. rewrite (S ND).
  apply flat_map_same. intros o _. rewrite H. cbn [history]. rewrite app_nil_r. reflexivity.
Qed.
Lemma absolute_default n objs h : (exists o, In o objs /\ alive o = true) -> exists h' st, absolute_draw n None objs h = (h', (st, Raise EAttributeError)).
Proof.
  intros (o & I & A). induction objs as [|o' objs IH]; [destruct I|]. cbn [absolute_draw]. fold (alive o'). destruct (alive o') eqn:A'; cbn [negb]; [eauto|].
  destruct I as [->|I]; [congruence|auto].
Qed.
Lemma alphas_fade n i j : i < j -> j < n -> ((1 # 100) <= nth j (alphas n) 0 /\ nth j (alphas n) 0 < nth i (alphas n) 0 /\ nth i (alphas n) 0 <= 99 # 100)%Q.
Proof.
  intros IJ JN. assert (V : forall k, k < n -> (nth k (alphas n) 0 == (99 # 100) - (98 # 100) * (inject_Z (Z.of_nat k) / inject_Z (Z.of_nat n - 1)))%Q).
  { intros k K. unfold alphas. set (F := fun i : nat => if Nat.eqb n 1 then _ else _). rewrite (nth_indep _ 0%Q (F 0)) by (rewrite map_length, seq_length; exact K).
    rewrite map_nth, seq_nth by exact K. unfold F. destruct (Nat.eqb_spec n 1); [lia|]. cbn [Nat.add]. unfold Qdiv. ring. }
  rewrite (V i), (V j) by lia. set (D := inject_Z (Z.of_nat n - 1)).
  assert (DP : (0 < D)%Q) by (unfold D; change 0%Q with (inject_Z 0); rewrite <- Zlt_Qlt; lia).
  assert (B : forall k, k < n -> (0 <= inject_Z (Z.of_nat k) / D <= 1)%Q).
  { intros k K. split; [apply Qle_shift_div_l; [exact DP|]|apply Qle_shift_div_r; [exact DP|]].
    - rewrite Qmult_0_l. change 0%Q with (inject_Z 0). rewrite <- Zle_Qle. lia.
    - rewrite Qmult_1_l. unfold D. rewrite <- Zle_Qle. lia. }
  assert (L : (inject_Z (Z.of_nat i) / D < inject_Z (Z.of_nat j) / D)%Q).
  { unfold Qdiv. apply Qmult_lt_compat_r; [apply Qinv_lt_0_compat, DP|]. rewrite <- Zlt_Qlt. lia. }
  pose proof (B i ltac:(lia)). pose proof (B j JN). split; [|split]; lra.
Qed.
Lemma alphas_even n : (0 < n -> (nth 0 (alphas n) 0 == 99 # 100)%Q) /\ (1 < n -> (nth (n - 1) (alphas n) 0 == 1 # 100)%Q) /\
  (forall k, S (S k) < n -> (nth k (alphas n) 0 - nth (S k) (alphas n) 0 == nth (S k) (alphas n) 0 - nth (S (S k)) (alphas n) 0)%Q).
Proof.
  destruct (Nat.eq_dec n 1) as [->|N1]; [split; [intros _; reflexivity|split; intros; lia]|].
  assert (V : forall k, k < n -> (nth k (alphas n) 0 == (99 # 100) - (98 # 100) * (inject_Z (Z.of_nat k) / inject_Z (Z.of_nat n - 1)))%Q).
  { intros k K. unfold alphas. set (F := fun i : nat => if Nat.eqb n 1 then _ else _). rewrite (nth_indep _ 0%Q (F 0)) by (rewrite map_length, seq_length; exact K).
    rewrite map_nth, seq_nth by exact K. unfold F. destruct (Nat.eqb_spec n 1); [lia|]. cbn [Nat.add]. unfold Qdiv. ring. }
  split; [|split].
  - intros H. rewrite (V 0 H). unfold Qdiv. change (inject_Z (Z.of_nat 0)) with 0%Q. ring.
  - intros H. rewrite (V (n - 1)) by lia. replace (Z.of_nat (n - 1)) with (Z.of_nat n - 1)%Z by lia. assert (D : ~ (inject_Z (Z.of_nat n - 1) == 0)%Q).
    { change 0%Q with (inject_Z 0). intros E. rewrite inject_Z_injective in E. lia. }
    unfold Qdiv. rewrite Qmult_inv_r by exact D. reflexivity.
  - intros k H. rewrite (V k), (V (S k)), (V (S (S k))) by lia. rewrite !Nat2Z.inj_succ. unfold Z.succ. rewrite !inject_Z_plus. unfold Qdiv. ring.
Qed.
Lemma max_shape_largest h w c : let m := max_shape (h, w, c) in (m = h \/ m = w \/ m = c)%Z /\ (h <= m /\ w <= m /\ c <= m)%Z.
Proof. cbn. lia. Qed.

(* ---- Paths ---- *)
Lemma fade_zero f : fade f 0 = 0%Z.
Proof. unfold fade, trunc. assert (E : (inject_Z 0 * f == 0)%Q) by ring. destruct (Qle_bool 0 (inject_Z 0 * f)); [rewrite (Qfloor_comp _ _ E)|rewrite (Qceiling_comp _ _ E)]; reflexivity. Qed.
Lemma paint_last disc circles : forall m y x,
  (forall c1 pc c2, circles = c1 ++ pc :: c2 -> disc (fst pc) y x = true -> (forall q, In q c2 -> disc (fst q) y x = false) -> fold_left (paint disc) circles m y x = color_pixel (snd pc)) /\
  ((forall q, In q circles -> disc (fst q) y x = false) -> fold_left (paint disc) circles m y x = m y x).
Proof.
  induction circles as [|q circles IH]; intros m y x; cbn [fold_left].
  - split; [intros [|? ?] pc c2 E; discriminate|reflexivity].
  - destruct (IH (paint disc m q) y x) as [A B]. split.
    + intros [|q' c1] pc c2 E D N; injection E as -> E.
      * subst circles. rewrite B by exact N. unfold paint. rewrite D. destruct (snd pc) as [[? ?] ?]. reflexivity.
      * eapply A; eauto.
    + intros N. rewrite B by (intros; apply N; right; assumption). unfold paint. rewrite N by (left; reflexivity). reflexivity.
Qed.
Lemma iter_comm {A} (f : A -> A) k a : Nat.iter k f (f a) = f (Nat.iter k f a).
Proof. induction k as [|k IH]; [reflexivity|]. change (f (Nat.iter k f (f a)) = f (f (Nat.iter k f a))). rewrite IH. reflexivity. Qed.
Lemma faded_step f k px : faded f k (map (fade f) px) = faded f (S k) px.
Proof. unfold faded. rewrite map_map. apply map_ext. intros v. cbn. apply iter_comm. Qed.
Lemma masks_length disc att video : forall m, length (masks disc att m video) = length video.
Proof. induction video as [|[f cs] video IH]; intros m; [reflexivity|]. cbn. rewrite IH. reflexivity. Qed.
(** The result of the last frame. *)
Lemma masks_untouched disc att : forall after m y x, later_clear disc after y x -> forall out, nth_error (masks disc att (Some m) after) (length after - 1) = Some out -> after <> [] ->
  fst out y x = faded (1 - att) (length after) (m y x).
Proof.
  induction after as [|[f cs] after IH]; intros m y x LC out E NE; [contradiction|]. cbn [masks] in E. set (r0 := paths_draw disc att (Some m) f cs) in *.
  assert (P : fst r0 y x = map (fade (1 - att)) (m y x)).
  { unfold r0, paths_draw, paths_mask. cbn [fst]. destruct (paint_last disc cs (fun y x => map (fade (1 - att)) (m y x)) y x) as [_ B]. rewrite B; [reflexivity|]. intros q I. apply (LC f cs q (or_introl eq_refl) I). }
  destruct after as [|c after'].
  - cbn in E. injection E as <-. rewrite P. unfold faded. reflexivity.
  - cbn [length] in E. replace (S (S (length after')) - 1) with (S (length (c :: after') - 1)) in E by (cbn [length]; lia). cbn [nth_error] in E.
    rewrite (IH (fst r0) y x); [|intros f' cs' q I; exact (LC f' cs' q (or_intror I))|exact E|discriminate]. rewrite P, faded_step. reflexivity.
Qed.
Lemma masks_black disc att : forall after m y x, later_clear disc after y x -> match m with None => True | Some m => m y x = [0; 0; 0]%Z end ->
  forall k out, nth_error (masks disc att m after) k = Some out -> fst out y x = [0; 0; 0]%Z.
Proof.
  induction after as [|[f cs] after IH]; intros m y x LC M k out E; [destruct k; discriminate|]. cbn [masks] in E.
  assert (P : fst (paths_draw disc att m f cs) y x = [0; 0; 0]%Z).
  { unfold paths_draw, paths_mask. cbn [fst]. edestruct (paint_last disc cs) as [_ B]. rewrite B; [|intros q I; apply (LC f cs q (or_introl eq_refl) I)].
    destruct m as [m|]; [rewrite M|]; cbn [map]; rewrite fade_zero; reflexivity. }
  destruct k as [|k]; [injection E as <-; exact P|]. cbn [nth_error] in E. eapply (IH (Some _)); [|exact P|exact E]. intros f' cs' q I; exact (LC f' cs' q (or_intror I)).
Qed.
Lemma masks_frame disc att : forall video m k f cs out, nth_error video k = Some (f, cs) -> nth_error (masks disc att m video) k = Some out ->
  forall y x, snd out y x = add_pixels (fst out y x) (f y x).
Proof.
  induction video as [|[f0 cs0] video IH]; intros m k f cs out V E y x; [destruct k; discriminate|]. cbn [masks] in E.
  destruct k as [|k]; [injection E as <-; injection V as -> ->; reflexivity|]. cbn [nth_error] in *. eapply IH; eauto.
Qed.
Lemma masks_touched disc att : forall before m f cs after y x c1 pc c2, cs = c1 ++ pc :: c2 -> disc (fst pc) y x = true -> (forall q, In q c2 -> disc (fst q) y x = false) ->
  later_clear disc after y x -> forall out, nth_error (masks disc att m (before ++ (f, cs) :: after)) (length before + length after) = Some out ->
  fst out y x = faded (1 - att) (length after) (color_pixel (snd pc)).
Proof.
  induction before as [|[f0 cs0] before IH]; intros m f cs after y x c1 pc c2 EC D N LC out E.
  - cbn [app length Nat.add masks] in E. set (r0 := paths_draw disc att m f cs) in *.
    assert (P : fst r0 y x = color_pixel (snd pc)).
    { unfold r0, paths_draw, paths_mask. cbn [fst]. edestruct (paint_last disc cs) as [A _]. eapply A; eauto. }
    destruct after as [|c after'].
    + cbn in E. injection E as <-. rewrite P. unfold faded. cbn [length Nat.iter]. symmetry. apply map_id.
    + cbn [length nth_error] in E. rewrite (masks_untouched disc att (c :: after') (fst r0) y x LC out); [rewrite P; reflexivity| |discriminate].
      cbn [length]. rewrite Nat.sub_succ, Nat.sub_0_r. exact E.
  - cbn [app length Nat.add masks nth_error] in E. eapply IH; eauto.
Qed.
Lemma add_pixels_lit : forall a b, add_pixels a b = lit_pixel a b.
Proof.
  induction a as [|v a IH]; intros [|w b]; try reflexivity. cbn [add_pixels]. rewrite IH. unfold lit_pixel. cbn [combine map fst snd]. f_equal.
  unfold lit. destruct (Z.ltb_spec 255 (v + w)); lia.
Qed.
Lemma masks_frame_all disc att video k f cs out : nth_error video k = Some (f, cs) -> nth_error (masks disc att None video) k = Some out ->
  forall y x, snd out y x = lit_pixel (fst out y x) (f y x) /\
  (later_clear disc video y x -> forall b g r, f y x = [b; g; r] -> byte b -> byte g -> byte r -> snd out y x = f y x).
Proof.
  intros V E y x. pose proof (masks_frame disc att video None k f cs out V E y x) as P. split; [rewrite P; apply add_pixels_lit|]. intros LC b g r EF B G R. rewrite P, (masks_black disc att video None y x LC Logic.I k out E), EF.
  unfold byte in *. cbn [add_pixels]. rewrite !Z.add_0_l, !Z.min_r by lia. reflexivity.
Qed.

(** What tracked objects and detections contribute. *)
Lemma object_drawn {FO : filter_ops QNum} (o : tobj FO) hide row :
  (shown hide (drawable_of_object o) row <-> exists i c, nth_error (estimate o) i = Some row /\ nth_error (o_point_hits o) i = Some c /\
     ((0 < c)%Z \/ hide = false)) /\
  (has_live (drawable_of_object o) <-> exists c, In c (o_point_hits o) /\ (0 < c)%Z) /\
  label_part (drawable_of_object o) = match oc_label (o_conf o) with LNone => EmptyString | l => label_str l end /\
  id_part (drawable_of_object o) = match o_id o with None => EmptyString | Some i => str_of_Z (Z.of_nat i) end /\
  (forall score_text, score_part score_text (drawable_of_object o) = EmptyString).
Proof.
  split; [|split; [|repeat split]].
  - unfold shown. cbn [dw_points dw_live drawable_of_object]. unfold live_points. split.
    + intros (i & E & H). rewrite nth_error_map in H. destruct (nth_error (o_point_hits o) i) as [c|] eqn:C; cbn in H; [|destruct H as [H|[_ H]]; discriminate].
      exists i, c. split; [exact E|]. split; [exact C|]. destruct H as [H|[H _]]; [left|right; exact H]. injection H as H. apply Z.ltb_lt. exact H.
    + intros (i & c & E & C & H). exists i. split; [exact E|]. rewrite nth_error_map, C. cbn.
      destruct (0 <? c)%Z eqn:L; [left; reflexivity|]. right. destruct H as [H|H]; [apply Z.ltb_ge in L; lia|auto].
  - unfold has_live. cbn [dw_live drawable_of_object]. unfold live_points. rewrite in_map_iff. split.
    + intros (c & H & I). exists c. split; [exact I|]. apply Z.ltb_lt. exact H.
    + intros (c & I & H). exists c. split; [apply Z.ltb_lt; exact H|exact I].
Qed.
Lemma detection_drawn (d : detection QNum) hide row :
  (shown hide (drawable_of_detection d) row <-> In row (d_points d)) /\
  (has_live (drawable_of_detection d) <-> d_points d <> []) /\
  label_part (drawable_of_detection d) = match d_label d with LNone => EmptyString | l => label_str l end /\
  id_part (drawable_of_detection d) = EmptyString /\
  (forall score_text, score_part score_text (drawable_of_detection d) = match d_scores d with None => EmptyString | Some s => score_text s end).
Proof.
  split; [|split; [|repeat split]].
  - unfold shown. cbn [dw_points dw_live drawable_of_detection]. split.
    + intros (i & E & _). eapply nth_error_In. exact E.
    + intros H. apply In_nth_error in H as [i E]. exists i. split; [exact E|]. left.
      assert (L : i < length (d_points d)) by (apply nth_error_Some; intros X; pose proof (eq_trans (eq_sym X) E) as Y; discriminate Y).
      revert L. generalize (length (d_points d)). clear. induction i as [|i IH]; intros [|n] L; cbn; try lia; [reflexivity|]. apply IH. lia.
  - unfold has_live. cbn [dw_live drawable_of_detection]. destruct (d_points d); cbn; split; intros H; [destruct H|congruence|discriminate|auto].
Qed.

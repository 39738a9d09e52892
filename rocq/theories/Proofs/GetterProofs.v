(** C102: the exact law of one call of the transformation getters. *)
From Coq Require Import ZArith QArith Reals Qreals Lra Lia Bool Arith List Sorting.Sorted.
From Verif Require Import Model.Num Model.Base Model.Tracker Model.CameraMotion
  Spec.PointSpec Spec.BuiltinSpec Spec.CameraSpec Spec.GetterSpec Proofs.NumLaws Proofs.RingNums Proofs.CameraProofs Proofs.HomographyProofs Proofs.CameraExamples.
Import ListNotations.
Local Open Scope nat_scope.

Notation rowR := (list RNum).
Lemma ltR (x y : R) : @nltb RNum x y = true <-> (x < y)%R.
Proof. cbn. unfold Rltb. destruct (Rlt_dec x y); split; intros; auto; discriminate. Qed.
Lemma eqR (x y : R) : @neqb RNum x y = true <-> x = y.
Proof. apply RNum_eq. Qed.

Lemma row_cons (x y : R) (a b : rowR) : @row_ltb RNum (x :: a) (y :: b) = true <-> (x < y)%R \/ (x = y /\ row_ltb a b = true).
Proof. cbn [row_ltb]. rewrite orb_true_iff, andb_true_iff, ltR, eqR. reflexivity. Qed.
Lemma row_irr (a : rowR) : row_ltb a a = false.
Proof.
  induction a as [|x a IH]; [reflexivity|]. apply not_true_is_false. intros H. apply row_cons in H. destruct H as [H|[_ H]]; [lra|congruence].
Qed.
Lemma row_trans (a : rowR) : forall b c, row_ltb a b = true -> row_ltb b c = true -> row_ltb a c = true.
Proof.
  induction a as [|x a IH]; intros [|y b] [|z c] H1 H2; try discriminate; try reflexivity.
  apply row_cons in H1, H2. apply row_cons. destruct H1 as [H1|[-> H1]], H2 as [H2|[-> H2]]; try (left; lra); auto. right. split; auto. eapply IH; eauto.
Qed.
Lemma row_total (a : rowR) : forall b, row_eqb a b = false -> row_ltb a b = false -> row_ltb b a = true.
Proof.
  induction a as [|x a IH]; intros [|y b] H1 H2; try discriminate; try reflexivity.
  apply row_cons. destruct (Rlt_le_dec y x) as [L|L]; [auto|]. destruct (Req_EM_T y x) as [->|Ne].
  - right. split; auto. apply IH.
    + apply not_true_is_false. intros E. cbn [row_eqb] in H1. rewrite E, (proj2 (eqR x x) eq_refl) in H1. discriminate.
    + apply not_true_is_false. intros E. exact (eq_true_false_abs _ (proj2 (row_cons x x a b) (or_intror (conj eq_refl E))) H2).
  - exfalso. refine (eq_true_false_abs _ (proj2 (row_cons x y a b) (or_introl _)) H2). lra.
Qed.

Definition lt_row (a b : rowR) : Prop := row_ltb a b = true.
Lemma insert_sorted r (l : list rowR) : StronglySorted lt_row l -> StronglySorted lt_row (insert_row r l).
Proof.
  intros S. induction S as [|s l S IH F]; cbn; [repeat constructor|].
  destruct (row_eqb r s) eqn:E; [constructor; auto|]. destruct (row_ltb r s) eqn:L.
  - constructor; [constructor; auto|]. constructor; [exact L|]. rewrite Forall_forall in F |- *. intros x Hx. exact (row_trans _ _ _ L (F x Hx)).
  - constructor; [exact IH|]. rewrite Forall_forall in F |- *. intros x Hx. apply (insert_in RNum_eq) in Hx. destruct Hx as [->|Hx]; [|exact (F x Hx)].
    apply row_total; auto.
Qed.
Lemma unique_sorted (l : list rowR) : StronglySorted lt_row (unique_rows l).
Proof. induction l as [|r l IH]; cbn; [constructor|apply insert_sorted, IH]. Qed.

Lemma best_first (l : list rowR) rows : forall best, StronglySorted lt_row (best :: rows) -> forall x, In x (best :: rows) ->
  count_row x l = count_row (best_row l best rows) l -> x = best_row l best rows \/ lt_row (best_row l best rows) x.
Proof.
  induction rows as [|r rows IH]; intros best S x Hx E; cbn [best_row] in *.
  - destruct Hx as [<-|[]]. auto.
  - apply StronglySorted_inv in S. destruct S as [S F]. assert (Fr : lt_row best r) by (rewrite Forall_forall in F; apply F; left; auto).
    destruct (Nat.ltb_spec (count_row best l) (count_row r l)) as [L|L].
    + destruct Hx as [<-|Hx]; [|apply IH; auto]. exfalso. pose proof (best_row_max l rows r r (or_introl eq_refl)) as M. lia.
    + assert (S' : StronglySorted lt_row (best :: rows)).
      { constructor; [apply StronglySorted_inv in S; apply S|]. apply Forall_inv_tail in F. exact F. }
      destruct Hx as [<-|[<-|Hx]]; [apply IH; auto; left; auto| |apply IH; auto; right; auto].
      pose proof (best_row_max l rows best best (or_introl eq_refl)) as M. assert (Eb : count_row best l = count_row (best_row l best rows) l) by lia.
      right. destruct (IH best S' best (or_introl eq_refl) Eb) as [<-|B]; [exact Fr|]. exact (row_trans _ _ _ B Fr).
Qed.

Lemma before_row (a : rowR) : forall b : rowR, length a = length b -> lt_row a b -> before a b.
Proof.
  induction a as [|x a IH]; intros [|y b] L H; try discriminate. apply row_cons in H. destruct H as [H|[-> H]].
  - exists 0, x, y. auto.
  - injection L as L. destruct (IH b L H) as (i & u & v & E & A & B & C). exists (S i), u, v. cbn. rewrite E. auto.
Qed.

Lemma map2_combine {A B C} (f : A -> B -> C) : forall a b, map2 f a b = map (fun xy => f (fst xy) (snd xy)) (combine a b).
Proof. induction a as [|x a IH]; intros [|y b]; cbn; f_equal; auto. Qed.
Lemma binned_is_flow around bin (curr prev : points RNum) : binned_flow around bin curr prev = flow_vectors around bin curr prev.
Proof.
  unfold binned_flow, flow_vectors. rewrite map2_combine. apply map_ext. intros [c p]. cbn [fst snd]. rewrite map2_combine. reflexivity.
Qed.
Lemma flow_length around bin (curr prev : points RNum) : length curr = length prev -> length (flow_vectors around bin curr prev) = length prev.
Proof. intros L. unfold flow_vectors. rewrite map_length, combine_length. lia. Qed.
Lemma flow_planar around bin (curr prev : points RNum) : planar curr -> planar prev -> forall r, In r (flow_vectors around bin curr prev) -> length r = 2.
Proof.
  intros A B r H. unfold flow_vectors in H. apply in_map_iff in H. destruct H as ([c p] & <- & H). cbn [fst snd]. rewrite map_length, combine_length.
  unfold planar in *. rewrite Forall_forall in A, B. pose proof (in_combine_l _ _ _ _ H) as Hl. pose proof (in_combine_r _ _ _ _ H) as Hr. rewrite (A _ Hl), (B _ Hr). reflexivity.
Qed.
Lemma nat_real k : (@n_of_nat RNum k : R) = INR k.
Proof. unfold n_of_nat. cbn. unfold Q2R, inject_Z. cbn. rewrite <- INR_IZR_INZ. field. Qed.
Lemma occurs_in {A} (w : A) l m : occurs w l m -> 0 < m -> In w l.
Proof.
  intros (q & _ & Iq & Lq) Hm. destruct q as [|i q]; [cbn in Lq; lia|]. destruct (proj1 (Iq i) (or_introl eq_refl)) as [_ X]. apply nth_error_In in X. exact X.
Qed.

Theorem translation_law around (g : tgetter RNum) (curr prev : points RNum) : length curr = length prev -> planar curr -> planar prev -> prev <> [] ->
  exists g' flag v, tg_call around g (Some curr) (Some prev) = (g', Ret (flag, Some v)) /\ translation_call around g g' curr prev flag v.
Proof.
  intros L P Q Ne. unfold tg_call. rewrite binned_is_flow. set (F := flow_vectors around (tg_bin g) curr prev).
  assert (LF : length F = length prev) by (apply flow_length, L).
  destruct (unique_rows F) as [|r rows] eqn:U.
  { exfalso. destruct F as [|x F'] eqn:EF; [destruct prev; [auto|discriminate]|]. assert (X : In x (unique_rows (x :: F'))) by (apply (unique_in RNum_eq); left; auto). rewrite U in X. destruct X. }
  set (mode := best_row F r rows). pose proof (unique_sorted F) as SS. rewrite U in SS.
  assert (Hin : forall x, In x (r :: rows) <-> In x F) by (intros x; rewrite <- U; apply (unique_in RNum_eq)).
  assert (Hmode : In mode F) by (apply Hin, best_row_in).
  assert (FM : first_mode F mode (count_row mode F)).
  { split; [apply (count_occurs RNum_eq)|]. split.
    - unfold count_row. assert (X : In mode (filter (row_eqb mode) F)) by (apply filter_In; split; [exact Hmode|apply (row_eqb_iff RNum_eq); reflexivity]). destruct (filter (row_eqb mode) F); [destruct X|cbn; lia].
    - intros w m Nw Ow. assert (Em : m = @count_row RNum w F) by (eapply occurs_unique; [exact Ow|apply (count_occurs RNum_eq)]).
      destruct m as [|m']; [|].
      { assert (X : 0 < count_row mode F); [|left; exact X]. unfold count_row. assert (X : In mode (filter (row_eqb mode) F)) by (apply filter_In; split; [exact Hmode|apply (row_eqb_iff RNum_eq); reflexivity]). destruct (filter (row_eqb mode) F); [destruct X|cbn; lia]. }
      assert (Iw : In w F) by (eapply occurs_in; [exact Ow|lia]). apply Hin in Iw. pose proof (best_row_max F rows r w Iw) as M. fold mode in M. rewrite <- Em in M.
      destruct (Nat.eq_dec (S m') (count_row mode F)) as [E|E]; [|left; lia]. right. split; [exact E|].
      destruct (best_first F rows r SS w Iw) as [X|X]; [fold mode; congruence|contradiction|]. fold mode in X. apply before_row; [|exact X].
      rewrite (flow_planar around (tg_bin g) curr prev P Q mode Hmode). apply Hin in Iw. rewrite (flow_planar around (tg_bin g) curr prev P Q w Iw). reflexivity. }
  set (v := match tg_data g with Some d => map2 nadd mode d | None => mode end).
  assert (Ev : v = accumulated (tg_data g) mode) by (unfold v, accumulated; destruct (tg_data g); [apply map2_combine|reflexivity]).
  set (flag := nltb (n_of_nat (count_row mode F) / n_of_nat (length prev))%n (tg_threshold g)).
  assert (Ef : flag = true <-> (INR (count_row mode F) / INR (length prev) < tg_threshold g)%R).
  { unfold flag. rewrite ltR. cbn [ndiv RNum]. rewrite !nat_real. reflexivity. }
  exists (if flag then MkTG (tg_bin g) (tg_threshold g) (Some v) else g), flag, v. split; [reflexivity|].
  constructor.
  - exists mode, (count_row mode F). auto.
  - destruct flag; reflexivity.
  - destruct flag; split; reflexivity.
Qed.
Theorem translation_fails around (g : tgetter RNum) curr prev :
  ((curr = None \/ prev = None) -> tg_call around g curr prev = (g, Raise ETypeError)) /\
  (curr = Some [] -> prev = Some [] -> tg_call around g curr prev = (g, Raise EValueError)).
Proof.
  split.
  - intros [->| ->]; [reflexivity|]. destruct curr; reflexivity.
  - intros -> ->. reflexivity.
Qed.

Lemma used_count (used : list bool) : occurs true used (length (filter (fun b => b) used)).
Proof.
  assert (X : occurs true used (length (filter (Bool.eqb true) used))) by (apply occurs_count; intros x y; apply eqb_true_iff).
  replace (filter (fun b => b) used) with (filter (Bool.eqb true) used); [exact X|]. apply filter_ext. intros []; reflexivity.
Qed.
Lemma low_enough p : low p <-> enough p = false.
Proof. destruct p as [l|]; unfold low, enough; [|tauto]. rewrite Nat.leb_gt. lia. Qed.
Lemma not_low p : ~ low p -> exists l, p = Some l /\ enough p = true.
Proof. destruct p as [l|]; unfold low, enough; [|tauto]. intros H. exists l. split; auto. apply Nat.leb_le. lia. Qed.

Section Hom.
Variable find : points RNum -> points RNum -> result (option (mat3 RNum) * option (list bool)).
Theorem homography_low (g : hgetter RNum) curr prev : low curr \/ low prev ->
  (hg_data g = None -> hg_call find g curr prev = (g, Ret (true, None))) /\
  (forall m h, hg_data g = Some m -> homography_new m = Ret h -> hg_call find g curr prev = (g, Ret (true, Some h))).
Proof.
  intros H. assert (E : enough prev && enough curr = false) by (apply andb_false_iff; rewrite <- !low_enough; tauto).
  unfold hg_call. rewrite E. split.
  - intros ->. reflexivity.
  - intros m h -> ->. reflexivity.
Qed.
Lemma high_call (g : hgetter RNum) curr prev : ~ low (Some curr) -> ~ low (Some prev) ->
  hg_call find g (Some curr) (Some prev) =
    match find prev curr with
    | Raise e => (g, Raise e)
    | Ret (matrix, points_used) =>
      match points_used with
      | None => (g, Raise ETypeError)
      | Some used =>
        let update_prvs := nltb (n_of_nat (length (filter (fun b => b) used)) / n_of_nat (length used))%n (hg_threshold g) in
        let matrix := match matrix, hg_data g with Some m, Some d => Some (mat3_mul m d) | _, _ => matrix end in
        let g := if update_prvs then MkHG (hg_threshold g) matrix else g in
        match matrix with
        | None => (g, Raise ELinAlgError)
        | Some m => match homography_new m with Raise e => (g, Raise e) | Ret h => (g, Ret (update_prvs, Some h)) end
        end
      end
    end.
Proof.
  intros A B. apply not_low in A, B. destruct A as (? & _ & A), B as (? & _ & B). unfold hg_call. rewrite A, B. reflexivity.
Qed.
Lemma flag_few used (thr : R) : too_few used thr (nltb (n_of_nat (length (filter (fun b => b) used)) / n_of_nat (length used))%n (thr : RNum)).
Proof.
  exists (length (filter (fun b => b) used)). split; [apply used_count|]. rewrite ltR. cbn [ndiv RNum]. rewrite !nat_real. reflexivity.
Qed.
Theorem homography_fit (g : hgetter RNum) curr prev m used : ~ low (Some curr) -> ~ low (Some prev) -> find prev curr = Ret (Some m, Some used) ->
  exists m' flag r, composed (hg_data g) m m' /\ too_few used (hg_threshold g) flag /\
    hg_call find g (Some curr) (Some prev) = (MkHG (hg_threshold g) (if flag then Some m' else hg_data g), r) /\
    (invertible m' -> exists h, homography_new m' = Ret h /\ r = Ret (flag, Some h)) /\
    (~ invertible m' -> r = Raise ELinAlgError).
Proof.
  intros A B E. rewrite (high_call g curr prev A B), E. cbv zeta. pose proof (flag_few used (hg_threshold g)) as F. set (flag := nltb _ (hg_threshold g)) in *.
  set (m' := match hg_data g with Some d => mat3_mul m d | None => m end).
  replace (match hg_data g with Some d => Some (mat3_mul m d) | None => Some m end) with (Some m') by (unfold m'; destruct (hg_data g); reflexivity).
  exists m', flag. destruct (homography_rejects m') as [R1 R2].
  assert (C : composed (hg_data g) m m') by (unfold composed, m'; destruct (hg_data g); [apply apply3_mul|reflexivity]).
  assert (G : (if flag then MkHG (hg_threshold g) (Some m') else g) = MkHG (hg_threshold g) (if flag then Some m' else hg_data g)) by (destruct flag; [reflexivity|destruct g; reflexivity]).
  destruct (homography_new m') as [h|e] eqn:Eh.
  - exists (Ret (flag, Some h)). split; [exact C|]. split; [exact F|]. split; [rewrite G; reflexivity|]. split; [eauto|]. intros N. specialize (R2 N). discriminate.
  - exists (Raise e). split; [exact C|]. split; [exact F|]. split; [rewrite G; reflexivity|]. split; [intros I; destruct (R1 I); discriminate|]. intros N. specialize (R2 N). injection R2 as ->. reflexivity.
Qed.
Theorem homography_no_fit (g : hgetter RNum) curr prev : ~ low (Some curr) -> ~ low (Some prev) ->
  (forall e, find prev curr = Raise e -> hg_call find g (Some curr) (Some prev) = (g, Raise e)) /\
  (forall m, find prev curr = Ret (m, None) -> hg_call find g (Some curr) (Some prev) = (g, Raise ETypeError)) /\
  (forall used, find prev curr = Ret (None, Some used) -> exists flag, too_few used (hg_threshold g) flag /\
     hg_call find g (Some curr) (Some prev) = (MkHG (hg_threshold g) (if flag then None else hg_data g), Raise ELinAlgError)).
Proof.
  intros A B. rewrite (high_call g curr prev A B). split; [|split].
  - intros e ->. reflexivity.
  - intros m ->. reflexivity.
  - intros used ->. cbv zeta. pose proof (flag_few used (hg_threshold g)) as F. set (flag := nltb _ (hg_threshold g)) in *. exists flag. split; [exact F|]. destruct flag; [reflexivity|destruct g; reflexivity].
Qed.
End Hom.

(** C39: points without image. *)
Lemma homography_horizon (m : mat3 RNum) (h : homography RNum) x y a b : homography_new m = Ret h -> apply3 m (x, y, 1%R) = (a, b, 0%R) ->
  ct_abs_to_rel (homography_ct h) [[x; y]] = [[(a * 10000000)%R; (b * 10000000)%R]].
Proof.
  intros E H. unfold homography_new in E. destruct (inv3 m) as [i|]; [|discriminate]. injection E as <-. cbn [homography_ct ct_abs_to_rel h_matrix map].
  unfold apply3 in H. injection H as Ha Hb Hw. unfold project. 
  assert (W : neqb (m20 m * x + m21 m * y + m22 m)%n n0 = true).
  { apply eqR. cbn [nadd nmul n0 nofQ RNum]. rewrite <- Hw. cbn. unfold Q2R; cbn; lra. }
  cbv zeta. rewrite W. f_equal. unfold tiny. cbn [nadd nmul ndiv nofQ RNum]. rewrite <- Ha, <- Hb. unfold Q2R. cbn. f_equal; [|f_equal]; field.
Qed.

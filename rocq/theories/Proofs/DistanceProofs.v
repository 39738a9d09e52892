(** Proofs for C08. *)
From Coq Require Import ZArith Bool Arith Lia String Ascii List.
From Verif Require Import Model.Num Model.Base Model.Matching Model.Filter Model.Tracker Spec.DistanceSpec.
Import ListNotations.
Local Open Scope nat_scope.

(* ---- str of an int determines the int ---- *)
Fixpoint str_val (s : string) (v : Z) : Z :=
  match s with EmptyString => v | String c s' => str_val s' (v * 10 + (Z.of_nat (nat_of_ascii c) - 48))%Z end.
Lemma digit_val d : (0 <= d < 10)%Z -> (Z.of_nat (nat_of_ascii (digit_char d)) - 48 = d)%Z.
Proof. intros H. unfold digit_char. rewrite nat_ascii_embedding; lia. Qed.
Lemma pos_digits_val f : forall z acc, (0 <= z < 10 ^ Z.of_nat (S f))%Z -> str_val (pos_digits (S f) z acc) 0 = str_val acc z.
Proof.
  induction f as [|f IH]; intros z acc Hz.
  - cbn [pos_digits]. change (10 ^ Z.of_nat 1)%Z with 10%Z in Hz. destruct (Z.ltb_spec z 10); [|lia].
    cbn [str_val]. rewrite digit_val by lia. f_equal; lia.
  - remember (S f) as f' eqn:Ef. cbn [pos_digits]. destruct (Z.ltb_spec z 10).
    + cbn [str_val]. rewrite digit_val by lia. f_equal; lia.
    + pose proof (Z.mod_pos_bound z 10). pose proof (Z.div_mod z 10). rewrite IH.
      * cbn [str_val]. rewrite digit_val by lia. f_equal; lia.
      * split; [apply Z.div_pos; lia|]. apply Z.div_lt_upper_bound; [lia|].
        rewrite Nat2Z.inj_succ, Z.pow_succ_r in Hz by lia. lia.
Qed.
Lemma pos_digits_head f : forall z acc, (0 <= z)%Z -> exists d t, pos_digits (S f) z acc = String (digit_char d) t /\ (0 <= d < 10)%Z.
Proof.
  induction f as [|f IH]; intros z acc Hz.
  - cbn [pos_digits]. pose proof (Z.mod_pos_bound z 10). destruct (Z.ltb_spec z 10).
    + exists z, acc. split; [reflexivity|lia].
    + exists (z mod 10)%Z, acc. split; [reflexivity|lia].
  - remember (S f) as f' eqn:Ef. cbn [pos_digits]. destruct (Z.ltb_spec z 10).
    + exists z, acc. split; [reflexivity|lia].
    + apply IH. apply Z.div_pos; lia.
Qed.
Lemma str_of_Z_abs z : (0 <= z)%Z -> str_val (pos_digits (S (Z.to_nat (Z.log2 z))) z EmptyString) 0 = z.
Proof.
  intros Hz. rewrite pos_digits_val; [reflexivity|]. split; auto.
  destruct (Z.eq_dec z 0) as [->|Hn]; [apply Z.pow_pos_nonneg; lia|].
  rewrite Nat2Z.inj_succ, Z2Nat.id by apply Z.log2_nonneg. destruct (Z.log2_spec z) as [_ H]; [lia|].
  eapply Z.lt_le_trans; [exact H|]. apply Z.pow_le_mono_l. lia.
Qed.
Lemma str_of_Z_inj a b : str_of_Z a = str_of_Z b -> a = b.
Proof.
  unfold str_of_Z. intros H.
  pose proof (str_of_Z_abs (Z.abs a) ltac:(lia)) as Va. pose proof (str_of_Z_abs (Z.abs b) ltac:(lia)) as Vb.
  set (da := pos_digits (S (Z.to_nat (Z.log2 (Z.abs a)))) (Z.abs a) EmptyString) in *.
  set (db := pos_digits (S (Z.to_nat (Z.log2 (Z.abs b)))) (Z.abs b) EmptyString) in *.
  assert (Hd : forall z t, pos_digits (S (Z.to_nat (Z.log2 (Z.abs z)))) (Z.abs z) EmptyString <> String "-"%char t).
  { intros z t E. destruct (pos_digits_head (Z.to_nat (Z.log2 (Z.abs z))) (Z.abs z) EmptyString ltac:(lia)) as (d & u & X & Y);
    rewrite X in E; injection E as E _; apply (f_equal (fun c => Z.of_nat (nat_of_ascii c) - 48)%Z) in E;
    rewrite digit_val in E by auto; change (nat_of_ascii "-"%char) with 45 in E; lia. }
  destruct (Z.ltb_spec a 0), (Z.ltb_spec b 0).
  - injection H as H. rewrite H in Va. lia.
  - symmetry in H. exfalso. eapply Hd, H.
  - exfalso. eapply Hd, H.
  - rewrite H in Va. lia.
Qed.

Lemma label_str_inj a b : same_kind a b -> label_str a = label_str b -> a = b.
Proof.
  destruct a, b; cbn; intros H E; try contradiction; auto; [f_equal; apply str_of_Z_inj; auto|congruence].
Qed.
Lemma label_eqb_iff a b : label_eqb a b = true <-> a = b.
Proof.
  destruct a, b; cbn; split; intros H; try discriminate; try reflexivity.
  - apply Z.eqb_eq in H. congruence.
  - injection H as ->. apply Z.eqb_refl.
  - apply String.eqb_eq in H. congruence.
  - injection H as ->. apply String.eqb_refl.
Qed.

Section P.
Context {N : Num} {FO : filter_ops N}.
Notation st := (st FO).
Implicit Types s : st.

Lemma assign_row_filter {A} (P : A -> bool) (h k : A -> dval N) l :
  assign_row (map P l) (map h (filter P l)) (map k l) = map (fun i => if P i then h i else k i) l.
Proof. induction l as [|a l IH]; cbn; auto. destruct (P a); cbn; rewrite IH; auto. Qed.
Lemma assign_rows_filter {A B} (P : A -> bool) (Q : B -> bool) (h k : B -> A -> dval N) l m :
  assign_rows (map Q m) (map P l) (map (fun c => map (h c) (filter P l)) (filter Q m)) (map (fun c => map (k c) l) m)
  = map (fun c => map (fun i => if Q c && P i then h c i else k c i) l) m.
Proof.
  induction m as [|b m IH]; cbn; auto. destruct (Q b); cbn; rewrite IH; auto.
  rewrite assign_row_filter. auto.
Qed.

Lemma stack_ok (l : list (list N)) : l <> [] -> (forall v w, In v l -> In w l -> List.length v = List.length w) -> stack l = Ret l.
Proof.
  destruct l as [|v l]; [contradiction|]. intros _ H. unfold stack.
  assert (F : forallb (fun w => Nat.eqb (List.length w) (List.length v)) (v :: l) = true).
  { apply forallb_forall. intros w Hw. apply Nat.eqb_eq. apply H; auto. left. auto. }
  rewrite F. auto.
Qed.

Lemma cand_vector_coords s c : cand_vector s c = coords (view_cand s c).
Proof. destruct c; reflexivity. Qed.

(** All label strings are distinct for distinct labels. *)
Definition str_faithful s objects candidates : Prop :=
  forall a b, In a (all_labels s objects candidates) -> In b (all_labels s objects candidates) ->
    label_str a = label_str b -> a = b.

Lemma vectorized_loop_eq rnd f g s objects candidates : pointwise f g -> uniform_printed s objects candidates ->
  forall labels (k : cand -> nat -> dval N),
  (forall l, In l labels -> (exists i, In i objects /\ label_str (obj_label s i) = l) /\
                            (exists c, In c candidates /\ label_str (cand_label s c) = l)) ->
  vectorized_loop rnd f s objects candidates labels (map (fun c => map (k c) objects) candidates) =
  Ret (map (fun c => map (fun i =>
         if existsb (String.eqb (label_str (cand_label s c))) labels && String.eqb (label_str (cand_label s c)) (label_str (obj_label s i))
         then rnd (g (coords (view_cand s c)) (concat (estimate (s_store s i)))) else k c i) objects) candidates).
Proof.
  intros Hp [Uo Uc]. induction labels as [|l labels IH]; intros k Hl; cbn [vectorized_loop].
  - f_equal.
  - destruct (Hl l (or_introl eq_refl)) as [(i0 & Hi0 & Ei0) (c0 & Hc0 & Ec0)].
    rewrite stack_ok.
    2:{ intros X. apply map_eq_nil in X. assert (Y : In i0 (filter (fun i => String.eqb (label_str (obj_label s i)) l) objects)).
        { apply filter_In. split; auto. apply String.eqb_eq. auto. } rewrite X in Y. destruct Y. }
    2:{ intros v w Hv Hw. apply in_map_iff in Hv as (i & <- & Hi). apply in_map_iff in Hw as (j & <- & Hj).
        apply filter_In in Hi as [Hi Ei], Hj as [Hj Ej]. apply String.eqb_eq in Ei, Ej.
        apply (Uo i j Hi Hj). congruence. }
    rewrite stack_ok.
    2:{ intros X. apply map_eq_nil in X. assert (Y : In c0 (filter (fun c => String.eqb (label_str (cand_label s c)) l) candidates)).
        { apply filter_In. split; auto. apply String.eqb_eq. auto. } rewrite X in Y. destruct Y. }
    2:{ intros v w Hv Hw. apply in_map_iff in Hv as (i & <- & Hi). apply in_map_iff in Hw as (j & <- & Hj).
        apply filter_In in Hi as [Hi Ei], Hj as [Hj Ej]. apply String.eqb_eq in Ei, Ej.
        rewrite !cand_vector_coords. apply (Uc i j Hi Hj). congruence. }
    rewrite Hp, !map_length, Nat.eqb_refl.
    assert (F : forallb (fun r : list (dval N) => Nat.eqb (List.length r) (List.length (filter (fun i => String.eqb (label_str (obj_label s i)) l) objects)))
      (map (fun c => map (g c) (map (fun i => flatten (estimate (s_store s i))) (filter (fun i => String.eqb (label_str (obj_label s i)) l) objects)))
         (map (cand_vector s) (filter (fun c => String.eqb (label_str (cand_label s c)) l) candidates))) = true).
    { apply forallb_forall. intros r Hr. apply in_map_iff in Hr as (v & <- & _). rewrite !map_length. apply Nat.eqb_refl. }
    rewrite F. cbn [andb].
    match goal with |- context [assign_rows _ _ ?D _] =>
      replace D with (map (fun c => map (fun i => rnd (g (cand_vector s c) (flatten (estimate (s_store s i)))))
        (filter (fun i => String.eqb (label_str (obj_label s i)) l) objects))
        (filter (fun c => String.eqb (label_str (cand_label s c)) l) candidates)) end.
    2:{ rewrite !map_map. apply map_ext. intros c. rewrite !map_map. reflexivity. }
    rewrite (assign_rows_filter (fun i => String.eqb (label_str (obj_label s i)) l) (fun c => String.eqb (label_str (cand_label s c)) l)
      (fun c i => rnd (g (cand_vector s c) (flatten (estimate (s_store s i))))) k).
    rewrite IH by (intros l' Hl'; apply Hl; right; auto).
    f_equal. apply map_ext_in. intros c Hc. apply map_ext_in. intros i Hi. cbn [existsb].
    destruct (String.eqb_spec (label_str (cand_label s c)) l) as [Ec|Ec]; cbn [orb].
    + destruct (String.eqb_spec (label_str (cand_label s c)) (label_str (obj_label s i))) as [E|E].
      * replace (String.eqb (label_str (obj_label s i)) l) with true by (symmetry; apply String.eqb_eq; congruence).
        cbn [andb]. rewrite cand_vector_coords. destruct (existsb _ _); cbn; reflexivity.
      * replace (String.eqb (label_str (obj_label s i)) l) with false by (symmetry; apply String.eqb_neq; congruence).
        rewrite !andb_false_r. reflexivity.
    + reflexivity.
Qed.

Lemma insert_uniq_In x l y : In y (insert_uniq x l) <-> y = x \/ In y l.
Proof.
  induction l as [|z l IH]; cbn; [intuition|]. destruct (String.compare x z) eqn:E; cbn.
  - apply String.compare_eq_iff in E. subst. intuition.
  - intuition.
  - rewrite IH. intuition.
Qed.
Lemma unique_In l y : In y (unique l) <-> In y l.
Proof. induction l as [|x l IH]; cbn; [tauto|]. rewrite insert_uniq_In, IH. intuition. Qed.
Lemma existsb_String x l : existsb (String.eqb x) l = true <-> In x l.
Proof.
  rewrite existsb_exists. split; [intros (y & H & E); apply String.eqb_eq in E; subst; auto|].
  intros H. exists x. split; auto. apply String.eqb_refl.
Qed.

Theorem vectorized_printed rnd f g s objects candidates : pointwise f g -> uniform_printed s objects candidates ->
  vectorized_distances rnd f s objects candidates = Ret (printed_matrix rnd g s objects candidates).
Proof.
  intros Hp Hu. unfold vectorized_distances, printed_matrix.
  destruct objects as [|i0 objects]; [cbn; f_equal|].
  destruct candidates as [|c0 candidates]; [reflexivity|].
  rewrite (vectorized_loop_eq rnd f g s _ _ Hp Hu _ (fun _ _ => DPInf)).
  - f_equal. apply map_ext_in. intros c Hc. apply map_ext_in. intros i Hi.
    destruct (String.eqb_spec (label_str (cand_label s c)) (label_str (obj_label s i))) as [E|E]; [|rewrite andb_false_r; reflexivity].
    rewrite E, (proj2 (existsb_String _ _)); [reflexivity|].
    unfold intersect1d. apply filter_In. split.
    + apply unique_In. apply (in_map (fun i1 => label_str (obj_label s i1))). auto.
    + apply existsb_String, unique_In. rewrite <- E. apply (in_map (fun c1 => label_str (cand_label s c1))). auto.
  - intros l Hl. unfold intersect1d in Hl. apply filter_In in Hl as [A B]. apply -> unique_In in A.
    apply -> existsb_String in B. apply -> unique_In in B. apply in_map_iff in A as (i & <- & Hi). apply in_map_iff in B as (c & E & Hc).
    split; eauto.
Qed.
Theorem vectorized_faithful rnd f g s objects candidates : pointwise f g -> str_faithful s objects candidates ->
  uniform s objects candidates ->
  vectorized_distances rnd f s objects candidates = Ret (expected_matrix rnd g s objects candidates).
Proof.
  intros Hp Hf [Uo Uc].
  assert (Hu : uniform_printed s objects candidates).
  { split; intros a b Ha Hb E; [apply Uo|apply Uc]; auto; apply Hf; auto; apply in_or_app;
      ((left; apply in_map; assumption) || (right; apply in_map; assumption)). }
  rewrite (vectorized_printed rnd f g) by auto.
  unfold printed_matrix, expected_matrix. f_equal. apply map_ext_in. intros c Hc. apply map_ext_in. intros i Hi.
  assert (Inc : In (cand_label s c) (all_labels s objects candidates)) by (apply in_or_app; right; apply in_map; auto).
  assert (Ini : In (obj_label s i) (all_labels s objects candidates)) by (apply in_or_app; left; apply in_map; auto).
  replace (label_eqb (cand_label s c) (obj_label s i)) with (String.eqb (label_str (cand_label s c)) (label_str (obj_label s i))); [reflexivity|].
  apply eq_true_iff_eq. rewrite String.eqb_eq, label_eqb_iff. split; [auto|congruence].
Qed.

Lemma map_result_map {A B} (h : A -> B) l : map_result (fun a => Ret (h a)) l = Ret (map h l).
Proof. induction l as [|a l IH]; cbn; auto. rewrite IH. auto. Qed.
Lemma map_result_ext {A B} (f g : A -> result B) l : (forall a, f a = g a) -> map_result f l = map_result g l.
Proof. intros H. induction l as [|a l IH]; cbn; auto. rewrite H, IH. auto. Qed.

Theorem scalar_expected rnd g s objects candidates :
  scalar_distances rnd (scalar_of g) s objects candidates = Ret (expected_matrix rnd g s objects candidates).
Proof.
  unfold scalar_distances, expected_matrix. rewrite <- map_result_map. apply map_result_ext. intros c.
  rewrite <- map_result_map. apply map_result_ext. intros i. destruct (label_eqb _ _); reflexivity.
Qed.

Lemma one_kind_faithful s objects candidates : one_kind s objects candidates -> str_faithful s objects candidates.
Proof. intros H a b Ha Hb. apply label_str_inj. apply H; auto. Qed.

Theorem vectorized_scalar rnd f g s objects candidates : pointwise f g -> one_kind s objects candidates ->
  uniform s objects candidates ->
  get_distances rnd (VectorizedDistance f) s objects candidates = get_distances rnd (ScalarDistance (scalar_of g)) s objects candidates
  /\ get_distances rnd (VectorizedDistance f) s objects candidates = Ret (expected_matrix rnd g s objects candidates).
Proof.
  intros Hp Hk Hu. cbn [get_distances].
  rewrite scalar_expected, (vectorized_faithful rnd f g) by auto using one_kind_faithful. auto.
Qed.

(** Some candidate and some object with different labels that are printed alike. *)
Lemma printed_scalar rnd f g s objects candidates : pointwise f g -> uniform_printed s objects candidates ->
  get_distances rnd (VectorizedDistance f) s objects candidates = Ret (printed_matrix rnd g s objects candidates) /\
  ((forall c i, In c candidates -> In i objects ->
      label_str (cand_label s c) = label_str (obj_label s i) -> cand_label s c <> obj_label s i ->
      rnd (g (coords (view_cand s c)) (concat (estimate (s_store s i)))) = DPInf) <->
   get_distances rnd (VectorizedDistance f) s objects candidates = get_distances rnd (ScalarDistance (scalar_of g)) s objects candidates).
Proof.
  intros Hp Hu. cbn [get_distances]. rewrite (vectorized_printed rnd f g), scalar_expected by auto. split; [reflexivity|].
  unfold printed_matrix, expected_matrix. split.
  - intros H. f_equal. apply map_ext_in. intros c Hc. apply map_ext_in. intros i Hi.
    destruct (label_eqb (cand_label s c) (obj_label s i)) eqn:L.
    + apply label_eqb_iff in L. rewrite L, String.eqb_refl. reflexivity.
    + destruct (String.eqb_spec (label_str (cand_label s c)) (label_str (obj_label s i))) as [E|E]; [|reflexivity].
      apply H; auto. intros X. apply label_eqb_iff in X. congruence.
  - intros H c i Hc Hi E L. injection H as H.
    assert (X : forall A B (u v : A -> B) l, map u l = map v l -> forall a, In a l -> u a = v a).
    { clear. induction l as [|x l IH]; cbn; intros H a I; [destruct I|]. injection H as H0 H1. destruct I as [->|I]; auto. }
    pose proof (X _ _ _ _ _ (X _ _ _ _ _ H c Hc) i Hi) as Y. cbn in Y.
    rewrite E, String.eqb_refl in Y. rewrite Y.
    destruct (label_eqb (cand_label s c) (obj_label s i)) eqn:F; [apply label_eqb_iff in F; contradiction|reflexivity].
Qed.
End P.

(** The table of distances of two trackers that hold the same objects in a different order.  Used for C92. *)
From Coq Require Import ZArith Bool Arith String List Lia Permutation.
From Verif Require Import Model.Num Model.Base Model.Matching Model.Filter Model.Tracker Spec.MatchingSpec Spec.CallSpec Spec.ExampleVideo Spec.LabelSpec
  Spec.OrderSpec Proofs.TrackerFrame Proofs.Identity Proofs.Effect Proofs.LabelSim Proofs.LabelPhase Proofs.LabelVector.
Import ListNotations.

(** [l'] is [l] up to [R] and the order: its element [a] corresponds to element [p a] of [l]. *)
Definition arr {A B} (R : A -> B -> Prop) (p : nat -> nat) (l : list A) (l' : list B) : Prop :=
  List.length l = List.length l' /\ perm_of (List.length l') p /\
  forall a y, nth_error l' a = Some y -> exists x, nth_error l (p a) = Some x /\ R x y.

Lemma perm_arr {A B} (R : A -> B -> Prop) l l2 l' : Permutation l l2 -> Forall2 R l2 l' -> exists p, arr R p l l'.
Proof.
  intros P F. pose proof (Forall2_len _ _ _ F) as E.
  assert (X : exists p, perm_of (List.length l') p /\ forall a, a < List.length l' -> nth_error l2 a = nth_error l (p a)).
  { destruct l as [|d l0].
    - apply Permutation_nil in P. subst l2. cbn in E. exists (fun x => x). rewrite <- E. split; [|intros a Ha; lia].
      split; [intros; lia|split; [intros; lia|intros k Hk; lia]].
    - pose proof (Permutation_length P) as EL. apply (Permutation_nth _ _ d) in P. destruct P as (_ & p & B1 & B2 & B3). exists p.
      rewrite EL, E in *. split.
      + split; [exact B1|]. split; [exact B2|]. apply (FinFun.bInjective_bSurjective B1) in B2. exact B2.
      + intros a Ha. rewrite (nth_error_nth' l2 d) by lia. rewrite (nth_error_nth' (d :: l0) d) by (rewrite EL; apply B1, Ha). rewrite B3 by exact Ha. reflexivity. }
  destruct X as (p & Hp & X). exists p. split; [rewrite <- E; apply Permutation_length, P|]. split; [exact Hp|].
  intros a y Ha. assert (La : a < List.length l') by (apply nth_error_Some; congruence). rewrite <- (X a La).
  clear - F Ha. revert a Ha. induction F as [|x z l l' Hxz F IH]; intros [|a] Ha; try discriminate; cbn in *; [injection Ha as <-; eauto|auto].
Qed.
Lemma arr_in {A B} (R : A -> B -> Prop) p l l' x : arr R p l l' -> In x l -> exists y, In y l' /\ R x y.
Proof.
  intros (El & (P1 & P2 & P3) & H) Hx. apply In_nth_error in Hx as [k Hk].
  assert (Lk : k < List.length l') by (rewrite <- El; apply nth_error_Some; congruence). destruct (P3 k Lk) as (a & La & <-).
  destruct (nth_error l' a) as [y|] eqn:Ey; [|apply nth_error_None in Ey; lia]. destruct (H a y Ey) as (x' & Ex & Rx).
  assert (x' = x) by congruence. subst. exists y. split; [eapply nth_error_In; eauto|exact Rx].
Qed.
Lemma arr_in' {A B} (R : A -> B -> Prop) p l l' y : arr R p l l' -> In y l' -> exists x, In x l /\ R x y.
Proof. intros (El & _ & H) Hy. apply In_nth_error in Hy as [a Ha]. destruct (H a y Ha) as (x & Ex & Rx). exists x. split; [eapply nth_error_In; eauto|exact Rx]. Qed.

Lemma rank_nth {A} (q : A -> bool) l : forall a x, nth_error l a = Some x -> q x = true -> nth_error (filter q l) (rank q l a) = Some x.
Proof.
  unfold rank. induction l as [|y l IH]; intros [|a] x E Q; try discriminate; cbn in *.
  - injection E as ->. rewrite Q. reflexivity.
  - destruct (q y); cbn; apply IH; assumption.
Qed.

Section T.
Context {N : Num} {FO : filter_ops N}.
Notation st := (st FO).

Lemma stack_ret (l m : list (list N)) : stack l = Ret m <-> m = l /\ l <> [] /\ forall u v, In u l -> In v l -> List.length u = List.length v.
Proof.
  unfold stack. destruct l as [|v l]; [split; [discriminate|intros (_ & X & _); congruence]|].
  destruct (forallb _ (v :: l)) eqn:E; split; intros H.
  - injection H as <-. split; [reflexivity|]. split; [discriminate|]. rewrite forallb_forall in E. intros u w Hu Hw.
    apply E in Hu, Hw. apply Nat.eqb_eq in Hu, Hw. congruence.
  - destruct H as (-> & _). reflexivity.
  - discriminate.
  - destruct H as (_ & _ & H). assert (X : forallb (fun w => List.length w =? List.length v) (v :: l) = true); [|congruence].
    apply forallb_forall. intros w Hw. apply Nat.eqb_eq, H; [exact Hw|left; reflexivity].
Qed.

Section Vec.
Variable f : list (list N) -> list (list N) -> result (list (list (dval N))).
Variable g : list N -> list N -> option (dval N).
Hypothesis Hg : forall cs os D, cs <> [] -> os <> [] ->
    (f cs os = Ret D <-> Forall2 (fun c row => Forall2 (fun o d => g c o = Some d) os row) cs D).
Variable rnd : dval N -> dval N.

(** When the vectorized distances are computed without an exception. *)
Definition sound (s : st) (obs : list nat) (cs : list cand) : Prop :=
  forall c i, In c cs -> In i obs -> strC s c = strO s i ->
    (exists d, g (cand_vector s c) (vecO s i) = Some d) /\
    (forall c', In c' cs -> strC s c' = strC s c -> List.length (cand_vector s c') = List.length (cand_vector s c)) /\
    (forall i', In i' obs -> strO s i' = strO s i -> List.length (vecO s i') = List.length (vecO s i)).

Lemma Forall2_nth_error {A B} (R : A -> B -> Prop) l l' : Forall2 R l l' -> forall k x, nth_error l k = Some x -> exists y, nth_error l' k = Some y /\ R x y.
Proof. induction 1 as [|a b l l' Hab F IH]; intros [|k] x E; try discriminate; cbn in *; [injection E as <-; eauto|auto]. Qed.

Lemma good_cell (s : st) obs cs l D a b c i : good f s obs cs l D -> nth_error cs a = Some c -> nth_error obs b = Some i -> strC s c = l -> strO s i = l ->
  exists d, g (cand_vector s c) (vecO s i) = Some d /\ value rnd s obs cs D l a b = rnd d.
Proof.
  intros (so & sc & A1 & A2 & A3 & A4 & A5) Ha Hb Hc Hi. apply stack_ret in A1 as (-> & N1 & _). apply stack_ret in A2 as (-> & N2 & _).
  apply (Hg _ _ _ N2 N1) in A3.
  pose proof (rank_nth (fun c => String.eqb (strC s c) l) cs a c Ha (proj2 (String.eqb_eq _ _) Hc)) as Ra.
  pose proof (rank_nth (fun i => String.eqb (strO s i) l) obs b i Hb (proj2 (String.eqb_eq _ _) Hi)) as Rb.
  destruct (Forall2_nth_error _ _ _ A3 _ _ (map_nth_error (cand_vector s) _ _ Ra)) as (row & Er & F).
  destruct (Forall2_nth_error _ _ _ F _ _ (map_nth_error (vecO s) _ _ Rb)) as (d & Ed & Gd).
  exists d. split; [exact Gd|]. unfold value. rewrite (nth_error_nth _ _ [] (map_nth_error (map rnd) _ _ Er)).
  apply (nth_error_nth _ _ DNaN (map_nth_error rnd _ _ Ed)).
Qed.
Lemma good_sound (s : st) obs cs l D c i : good f s obs cs l D -> In c cs -> In i obs -> strC s c = l -> strO s i = l ->
    (exists d, g (cand_vector s c) (vecO s i) = Some d) /\
    (forall c', In c' cs -> strC s c' = strC s c -> List.length (cand_vector s c') = List.length (cand_vector s c)) /\
    (forall i', In i' obs -> strO s i' = strO s i -> List.length (vecO s i') = List.length (vecO s i)).
Proof.
  intros G Hc Hi Ec Ei. pose proof Hc as Kc. pose proof Hi as Ki. apply In_nth_error in Kc as [a Ha]. apply In_nth_error in Ki as [b Hb].
  destruct (good_cell _ _ _ _ _ _ _ _ _ G Ha Hb Ec Ei) as (d & Gd & _). split; [eauto|].
  destruct G as (so & sc & A1 & A2 & _). apply stack_ret in A1 as (_ & _ & U1). apply stack_ret in A2 as (_ & _ & U2). split.
  - intros c' Hc' E. apply U2; apply in_map, filter_In; (split; [assumption|apply String.eqb_eq; congruence]).
  - intros i' Hi' E. apply U1; apply in_map, filter_In; (split; [assumption|apply String.eqb_eq; congruence]).
Qed.
Lemma choose_row {A} (P : A -> dval N -> Prop) (l : list A) : (forall x, In x l -> exists d, P x d) -> exists row, Forall2 P l row.
Proof.
  induction l as [|x l IH]; intros H; [exists []; constructor|]. destruct (H x (or_introl eq_refl)) as [d Hd]. destruct IH as [row Hr]; [intros; apply H; right; assumption|].
  exists (d :: row). constructor; auto.
Qed.
Lemma choose_rows {A B} (P : A -> B -> dval N -> Prop) (l : list A) (l2 : list B) : (forall x y, In x l -> In y l2 -> exists d, P x y d) ->
  exists D, Forall2 (fun x row => Forall2 (P x) l2 row) l D.
Proof.
  induction l as [|x l IH]; intros H; [exists []; constructor|]. destruct (choose_row (P x) l2) as [row Hr]; [intros; apply H; [left; reflexivity|assumption]|].
  destruct IH as [D HD]; [intros; apply H; [right|]; assumption|]. exists (row :: D). constructor; auto.
Qed.
Lemma sound_good (s : st) obs cs l c i : sound s obs cs -> In c cs -> In i obs -> strC s c = l -> strO s i = l -> exists D, good f s obs cs l D.
Proof.
  intros S Hc Hi Ec Ei. set (os := filter (fun i => String.eqb (strO s i) l) obs). set (ks := filter (fun c => String.eqb (strC s c) l) cs).
  assert (Io : In i os) by (apply filter_In; split; [exact Hi|apply String.eqb_eq, Ei]). assert (Ik : In c ks) by (apply filter_In; split; [exact Hc|apply String.eqb_eq, Ec]).
  assert (Ho : forall x, In x os -> In x obs /\ strO s x = l) by (intros x Hx; apply filter_In in Hx as [H1 H2]; apply String.eqb_eq in H2; auto).
  assert (Hk : forall x, In x ks -> In x cs /\ strC s x = l) by (intros x Hx; apply filter_In in Hx as [H1 H2]; apply String.eqb_eq in H2; auto).
  assert (No : map (vecO s) os <> []) by (intros X; apply map_eq_nil in X; rewrite X in Io; destruct Io).
  assert (Nk : map (cand_vector s) ks <> []) by (intros X; apply map_eq_nil in X; rewrite X in Ik; destruct Ik).
  destruct (choose_rows (fun c o d => g c o = Some d) (map (cand_vector s) ks) (map (vecO s) os)) as [D HD].
  { intros x y Hx Hy. apply in_map_iff in Hx as (c' & <- & Hc'). apply in_map_iff in Hy as (i' & <- & Hi'). destruct (Hk _ Hc') as [K1 K2]. destruct (Ho _ Hi') as [O1 O2].
    apply (S c' i' K1 O1). congruence. }
  exists D, (map (vecO s) os), (map (cand_vector s) ks). fold os ks.
  split; [apply stack_ret; split; [reflexivity|]; split; [exact No|]|split; [apply stack_ret; split; [reflexivity|]; split; [exact Nk|]|]].
  - intros u v Hu Hv. apply in_map_iff in Hu as (x & <- & Hx). apply in_map_iff in Hv as (y & <- & Hy). destruct (Ho _ Hx) as [O1 O2]. destruct (Ho _ Hy) as [O3 O4].
    symmetry. apply (S c x Hc O1); [congruence|exact O3|congruence].
  - intros u v Hu Hv. apply in_map_iff in Hu as (x & <- & Hx). apply in_map_iff in Hv as (y & <- & Hy). destruct (Hk _ Hx) as [O1 O2]. destruct (Hk _ Hy) as [O3 O4].
    symmetry. apply (S x i O1 Hi); [congruence|exact O3|congruence].
  - split; [apply (Hg _ _ _ Nk No), HD|]. split; [rewrite <- (Forall2_len _ _ _ HD), map_length; reflexivity|].
    apply Forall_forall. intros r Hr. rewrite <- (map_length (vecO s) os). clear - HD Hr. induction HD as [|x y l0 l0' H F IH]; [destruct Hr|].
    destruct Hr as [<-|Hr]; [symmetry; apply (Forall2_len _ _ _ H)|auto].
Qed.

Lemma R0 (obs : list nat) (cs : list cand) : rect (List.length cs) (List.length obs) (map (fun _ => map (fun _ => DPInf) obs) cs : matrix N).
Proof. split; [apply map_length|]. apply Forall_forall. intros r Hr. apply in_map_iff in Hr as (? & <- & _). apply map_length. Qed.
Lemma I0 (obs : list nat) (cs : list cand) a b : a < List.length cs -> b < List.length obs -> entry (map (fun _ => map (fun _ => DPInf) obs) cs : matrix N) a b = DPInf.
Proof.
  intros Ha Hb. unfold entry. rewrite (nth_indep _ [] (map (fun _ => DPInf) obs)) by (rewrite map_length; exact Ha).
  destruct cs as [|c0 cs]; [cbn in Ha; lia|]. rewrite (map_nth (fun _ => map (fun _ => DPInf) obs) (c0 :: cs) c0). rewrite (nth_indep _ DNaN DPInf) by (rewrite map_length; exact Hb).
  apply (map_nth (fun _ => DPInf) obs 0).
Qed.

Lemma vector_cells (s : st) obs cs M : vectorized_distances rnd f s obs cs = Ret M ->
  sound s obs cs /\ forall a b c i, nth_error cs a = Some c -> nth_error obs b = Some i ->
    if String.eqb (strC s c) (strO s i) then exists d, g (cand_vector s c) (vecO s i) = Some d /\ entry M a b = rnd d else entry M a b = DPInf.
Proof.
  intros E. unfold vectorized_distances in E. destruct obs as [|o0 obs1]; [split; [intros c i _ []|intros a b c i _ X; destruct b; discriminate]|].
  destruct cs as [|c0 cs1]; [split; [intros c i []|intros a b c i X; destruct a; discriminate]|].
  set (obs := o0 :: obs1) in *. set (cs := c0 :: cs1) in *.
  assert (E' : vectorized_loop rnd f s obs cs (intersect1d (unique (map (strO s) obs)) (unique (map (strC s) cs))) (map (fun _ => map (fun _ => DPInf) obs) cs) = Ret M) by exact E.
  clear E. clearbody obs cs. destruct (loop_spec f rnd s obs cs _ c0 _ M (R0 obs cs) E') as [G1 H1].
  assert (Lab : forall c i, In c cs -> In i obs -> strC s c = strO s i -> In (strC s c) (intersect1d (unique (map (strO s) obs)) (unique (map (strC s) cs)))).
  { intros c i Hc Hi Eq. apply common_labels. split; [rewrite Eq|]; apply in_map; assumption. }
  split.
  - intros c i Hc Hi Eq. destruct (G1 _ (Lab c i Hc Hi Eq)) as [D HD]. eapply good_sound; eauto.
  - intros a b c i Ha Hb. assert (La : a < List.length cs) by (apply nth_error_Some; congruence). assert (Lb : b < List.length obs) by (apply nth_error_Some; congruence).
    destruct (H1 a b La Lb) as [X1 X2]. rewrite (nth_error_nth _ _ c0 Ha), (nth_error_nth _ _ 0 Hb) in X1, X2.
    destruct (String.eqb_spec (strC s c) (strO s i)) as [Eq|Ne].
    + pose proof (Lab c i (nth_error_In _ _ Ha) (nth_error_In _ _ Hb) Eq) as Hl. destruct (G1 _ Hl) as [D HD].
      destruct (good_cell _ _ _ _ _ _ _ _ _ HD Ha Hb eq_refl (eq_sym Eq)) as (d & Gd & Vd). exists d. split; [exact Gd|].
      rewrite (X1 _ D Hl HD eq_refl (eq_sym Eq)). exact Vd.
    + rewrite X2 by tauto. apply I0; assumption.
Qed.
Lemma vector_total (s : st) obs cs : sound s obs cs -> exists M, vectorized_distances rnd f s obs cs = Ret M.
Proof.
  intros S. unfold vectorized_distances. destruct obs as [|o0 obs1]; [eexists; reflexivity|]. destruct cs as [|c0 cs1]; [eexists; reflexivity|].
  set (obs := o0 :: obs1) in *. set (cs := c0 :: cs1) in *. clearbody obs cs.
  apply (loop_total f rnd s obs cs (intersect1d (unique (map (strO s) obs)) (unique (map (strC s) cs)))).
  intros l Hl. apply common_labels in Hl as [Ho Hc]. apply in_map_iff in Ho as (i & Ei & Hi). apply in_map_iff in Hc as (c & Ec & Hc). eapply sound_good; eauto.
Qed.
End Vec.

(** ** Two states *)
Record same_world (L : list (nat * nat)) (s t : st) : Prop := MkWorld {
  sw_heap : forall r, s_heap s r = s_heap t r;
  sw_obj : forall i j, In (i, j) L -> anonymous (s_store s i) = anonymous (s_store t j)
}.
Section W.
Variable L : list (nat * nat).
Definition cpair (c c' : cand) : Prop := match c, c' with CDet r, CDet r' => r = r' | CObj i, CObj j => In (i, j) L | _, _ => False end.

Lemma sw_view (s t : st) i j : same_world L s t -> In (i, j) L -> anonymous_view (view_obj s i) = anonymous_view (view_obj t j).
Proof.
  intros S Hij. pose proof (sw_obj _ _ _ S i j Hij) as E. pose proof (core_fields _ _ E) as (_ & _ & _ & El & _ & _ & _ & _ & Ep & _).
  unfold anonymous_view, view_obj. cbn. rewrite E, El, Ep, (sw_heap _ _ _ S). f_equal. apply map_ext. intros r. apply (sw_heap _ _ _ S).
Qed.
Lemma sw_label (s t : st) i j : same_world L s t -> In (i, j) L -> obj_label s i = obj_label t j.
Proof. intros S H. apply (core_conf _ _ (sw_obj _ _ _ S i j H)). Qed.
Lemma sw_estimate (s t : st) i j : same_world L s t -> In (i, j) L -> estimate (s_store s i) = estimate (s_store t j).
Proof.
  intros S H. pose proof (sw_obj _ _ _ S i j H) as E. pose proof (core_fields _ _ E) as (_ & _ & _ & _ & _ & _ & _ & _ & _ & Ef & Ea).
  pose proof (core_conf _ _ E) as (E1 & E2 & _). unfold estimate, get_estimate, dim_z. rewrite E1, E2, Ef, Ea. reflexivity.
Qed.
Lemma sw_clabel (s t : st) c c' : same_world L s t -> cpair c c' -> cand_label s c = cand_label t c'.
Proof. intros S. destruct c as [r|i], c' as [r'|j]; cbn; try contradiction; [intros <-; rewrite (sw_heap _ _ _ S); reflexivity|apply sw_label, S]. Qed.
Lemma sw_cview (s t : st) c c' : same_world L s t -> cpair c c' -> anonymous_cand (view_cand s c) = anonymous_cand (view_cand t c').
Proof.
  intros S. destruct c as [r|i], c' as [r'|j]; cbn; try contradiction; [intros <-; rewrite (sw_heap _ _ _ S); reflexivity|]. intros H.
  exact (f_equal VObj (sw_view s t i j S H)).
Qed.
Lemma sw_vector (s t : st) c c' : same_world L s t -> cpair c c' -> cand_vector s c = cand_vector t c'.
Proof. intros S. destruct c as [r|i], c' as [r'|j]; cbn; try contradiction; [intros <-; rewrite (sw_heap _ _ _ S); reflexivity|intros H; rewrite (sw_estimate s t i j S H); reflexivity]. Qed.

(** The same numbers, in another order. *)
Theorem ordered_table rnd d (s t : st) obs obs' cs cs' p q M : pairwise d -> same_world L s t -> arr (pairL L) q obs obs' -> arr cpair p cs cs' ->
  get_distances rnd d s obs cs = Ret M ->
  exists M', get_distances rnd d t obs' cs' = Ret M' /\
    forall a b, a < List.length cs' -> b < List.length obs' -> entry M' a b = entry M (p a) (q b).
Proof.
  intros Hd S Ro Rc E. destruct d as [f|f]; cbn in Hd, E |- *.
  - destruct (scalar_entries rnd f s obs cs M E) as [R He].
    assert (Em : forall a b c' i', nth_error cs' a = Some c' -> nth_error obs' b = Some i' ->
      (if negb (label_eqb (cand_label t c') (obj_label t i')) then Ret DPInf
       else match f (view_cand t c') (view_obj t i') with Ret d => Ret (rnd d) | Raise e => Raise e end) = Ret (entry M (p a) (q b))).
    { intros a b c' i' Ha Hb. destruct (proj2 (proj2 Rc) a c' Ha) as (c & Ec & Cc). destruct (proj2 (proj2 Ro) b i' Hb) as (i & Ei & Ci).
      rewrite <- (He _ _ _ _ Ec Ei). rewrite <- (sw_clabel s t _ _ S Cc), <- (sw_label s t _ _ S Ci).
      rewrite (Hd (view_cand t c')), (Hd (view_cand s _)), (sw_cview s t _ _ S Cc), (sw_view s t _ _ S Ci). reflexivity. }
    destruct (map_result_all (fun c => map_result (fun i =>
      if negb (label_eqb (cand_label t c) (obj_label t i)) then Ret DPInf
      else match f (view_cand t c) (view_obj t i) with Ret d => Ret (rnd d) | Raise e => Raise e end) obs') cs') as [M' EM'].
    { intros c Hc. apply In_nth_error in Hc as [a Ha]. apply map_result_all. intros i Hi. apply In_nth_error in Hi as [b Hb]. rewrite (Em a b c i Ha Hb). eauto. }
    exists M'. split; [exact EM'|]. intros a b Ha Hb. destruct (scalar_entries rnd f t obs' cs' M' EM') as [_ He'].
    destruct (nth_error cs' a) as [c'|] eqn:X; [|apply nth_error_None in X; lia]. destruct (nth_error obs' b) as [i'|] eqn:Y; [|apply nth_error_None in Y; lia].
    specialize (He' a b c' i' X Y). rewrite (Em a b c' i' X Y) in He'. congruence.
  - destruct Hd as [g Hg]. destruct (vector_cells f g Hg rnd s obs cs M E) as [So He].
    assert (Ev : forall i j, pairL L i j -> vecO s i = vecO t j) by (intros i j H; unfold vecO; rewrite (sw_estimate s t i j S H); reflexivity).
    assert (Es : forall i j, pairL L i j -> strO s i = strO t j) by (intros i j H; unfold strO; rewrite (sw_label s t i j S H); reflexivity).
    assert (Ec : forall i j, cpair i j -> strC s i = strC t j) by (intros i j H; unfold strC; rewrite (sw_clabel s t i j S H); reflexivity).
    assert (So' : sound g t obs' cs').
    { intros c' i' Hc' Hi' Eq. destruct (arr_in' _ _ _ _ _ Rc Hc') as (c & Hc & Cc). destruct (arr_in' _ _ _ _ _ Ro Hi') as (i & Hi & Ci).
      destruct (So c i Hc Hi) as (A & B & C); [rewrite (Ec _ _ Cc), (Es _ _ Ci); exact Eq|].
      rewrite (sw_vector s t _ _ S Cc), (Ev _ _ Ci) in *. rewrite (Ec _ _ Cc) in B. rewrite (Es _ _ Ci) in C. split; [exact A|]. split.
      - intros c2' Hc2' E2. destruct (arr_in' _ _ _ _ _ Rc Hc2') as (c2 & Hc2 & Cc2). rewrite <- (sw_vector s t _ _ S Cc2). apply B; [exact Hc2|]. rewrite (Ec _ _ Cc2). exact E2.
      - intros i2' Hi2' E2. destruct (arr_in' _ _ _ _ _ Ro Hi2') as (i2 & Hi2 & Ci2). rewrite <- (Ev _ _ Ci2). apply C; [exact Hi2|]. rewrite (Es _ _ Ci2). exact E2. }
    destruct (vector_total f g Hg rnd t obs' cs' So') as [M' EM']. exists M'. split; [exact EM'|]. intros a b Ha Hb.
    destruct (vector_cells f g Hg rnd t obs' cs' M' EM') as [_ He'].
    destruct (nth_error cs' a) as [c'|] eqn:X; [|apply nth_error_None in X; lia]. destruct (nth_error obs' b) as [i'|] eqn:Y; [|apply nth_error_None in Y; lia].
    specialize (He' a b c' i' X Y). destruct (proj2 (proj2 Rc) a c' X) as (c & X' & Cc). destruct (proj2 (proj2 Ro) b i' Y) as (i & Y' & Ci).
    specialize (He (p a) (q b) c i X' Y'). rewrite (Ec _ _ Cc), (Es _ _ Ci), (sw_vector s t _ _ S Cc), (Ev _ _ Ci) in He.
    destruct (String.eqb _ _); [|congruence]. destruct He as (d1 & A1 & ->), He' as (d2 & A2 & ->). congruence.
Qed.
End W.
End T.

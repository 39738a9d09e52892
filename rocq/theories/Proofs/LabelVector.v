(** Vectorized distances of two trackers, one of which sees only some of the detections.  Used for C84. *)
From Coq Require Import ZArith Bool Arith String List Lia.
From Verif Require Import Model.Num Model.Base Model.Matching Model.Filter Model.Tracker Spec.MatchingSpec Spec.CallSpec Spec.ExampleVideo Spec.LabelSpec
  Proofs.TrackerFrame Proofs.Effect Proofs.DistanceProofs Proofs.GreedySub Proofs.LabelSim Proofs.LabelPhase.
Import ListNotations.

(** The number of elements satisfying [q] before position [a]. *)
Definition rank {A} (q : A -> bool) (l : list A) (a : nat) : nat := List.length (filter q (firstn a l)).

Lemma filter_filter_impl {A} (q sel : A -> bool) l : (forall x, In x l -> q x = true -> sel x = true) -> filter q l = filter q (filter sel l).
Proof.
  induction l as [|x l IH]; intros H; [reflexivity|]. cbn. assert (IH' := IH (fun y Hy => H y (or_intror Hy))).
  destruct (sel x) eqn:E; cbn; [rewrite IH'; reflexivity|]. destruct (q x) eqn:Q; [|exact IH']. rewrite (H x (or_introl eq_refl) Q) in E. discriminate.
Qed.
Lemma pos_cons {A} (sel : A -> bool) x l k : k < List.length (filter sel (x :: l)) ->
  pos sel (x :: l) k = if sel x then match k with 0 => 0 | S k' => S (pos sel l k') end else S (pos sel l k).
Proof.
  intros Hk. unfold pos at 1. rewrite positions_cons. cbn [filter] in Hk. assert (X : forall k', k' < List.length (filter sel l) -> nth k' (map S (positions sel l x)) 0 = S (pos sel l k')).
  { intros k' H'. rewrite (pos_eq sel l x) by (intros ->; cbn in H'; lia). rewrite (nth_indep _ 0 (S 0)) by (rewrite map_length, positions_length; exact H'). apply map_nth. }
  destruct (sel x); [|apply X, Hk]. destruct k as [|k]; [reflexivity|]. cbn [nth]. apply X. cbn in Hk. lia.
Qed.
Lemma firstn_pos {A} (sel : A -> bool) l : forall k, k < List.length (filter sel l) -> filter sel (firstn (pos sel l k) l) = firstn k (filter sel l).
Proof.
  induction l as [|x l IH]; intros k Hk; [cbn in Hk; lia|]. rewrite (pos_cons sel x l k Hk). cbn [filter] in Hk |- *. destruct (sel x) eqn:E.
  - destruct k as [|k]; [reflexivity|]. cbn. rewrite E. f_equal. apply IH. cbn in Hk. lia.
  - cbn. rewrite E. apply IH, Hk.
Qed.
Lemma rank_related {A B} (R : A -> B -> Prop) (sel q1 : A -> bool) (q2 : B -> bool) l1 l2 k :
  (forall x, In x l1 -> q1 x = true -> sel x = true) -> Forall2 R (filter sel l1) l2 -> (forall x y, R x y -> q1 x = q2 y) -> k < List.length l2 ->
  rank q1 l1 (pos sel l1 k) = rank q2 l2 k.
Proof.
  intros H F E Hk. pose proof (Forall2_len _ _ _ F) as Hl. unfold rank. rewrite (filter_filter_impl q1 sel), firstn_pos by (try lia; intros x Hx; apply H; rewrite <- (firstn_skipn (pos sel l1 k) l1); apply in_or_app; left; exact Hx).
  clear Hk Hl H. revert k. induction F as [|x y l l' Hxy F IH]; intros k; [destruct k; reflexivity|]. destruct k as [|k]; [reflexivity|]. cbn. rewrite (E x y Hxy). destruct (q2 y); cbn; rewrite IH; reflexivity.
Qed.
Lemma filter_related {A B C} (R : A -> B -> Prop) (sel q1 : A -> bool) (q2 : B -> bool) (f1 : A -> C) (f2 : B -> C) l1 l2 :
  (forall x, In x l1 -> q1 x = true -> sel x = true) -> Forall2 R (filter sel l1) l2 -> (forall x y, R x y -> q1 x = q2 y) -> (forall x y, R x y -> f1 x = f2 y) ->
  map f1 (filter q1 l1) = map f2 (filter q2 l2).
Proof.
  intros H F E Ef. rewrite (filter_filter_impl q1 sel) by exact H. induction F as [|x y l l' Hxy F IH]; [reflexivity|]. cbn. rewrite (E x y Hxy).
  destruct (q2 y); cbn; rewrite ?(Ef x y Hxy), IH; reflexivity.
Qed.

Section V.
Context {N : Num} {FO : filter_ops N}.
Notation st := (st FO).

Lemma assign_row_nth {A} (q : A -> bool) (a0 : A) l : forall (drow row : list (dval N)) b, List.length row = List.length l ->
  List.length drow = List.length (filter q l) -> b < List.length l ->
  nth b (assign_row (map q l) drow row) DNaN = if q (nth b l a0) then nth (rank q l b) drow DNaN else nth b row DNaN.
Proof.
  induction l as [|x l IH]; intros drow row b Hr Hd Hb; [cbn in Hb; lia|]. destruct row as [|y row]; [discriminate|]. cbn in Hr, Hd. cbn [map].
  destruct (q x) eqn:Q.
  - destruct drow as [|v drow]; [discriminate|]. cbn [assign_row]. destruct b as [|b]; [cbn; rewrite Q; reflexivity|].
    cbn [nth]. rewrite IH by (cbn in Hd, Hb; lia). unfold rank. cbn. rewrite Q. reflexivity.
  - cbn [assign_row]. destruct b as [|b]; [cbn; rewrite Q; reflexivity|]. cbn [nth]. rewrite IH by (cbn in Hb; auto; lia). unfold rank. cbn. rewrite Q. reflexivity.
Qed.
Lemma assign_rows_nth {A} (q : A -> bool) (a0 : A) om l : forall (D M : matrix N) a, List.length M = List.length l ->
  List.length D = List.length (filter q l) -> a < List.length l ->
  nth a (assign_rows (map q l) om D M) [] = if q (nth a l a0) then assign_row om (nth (rank q l a) D []) (nth a M []) else nth a M [].
Proof.
  induction l as [|x l IH]; intros D M a Hr Hd Ha; [cbn in Ha; lia|]. destruct M as [|r M]; [discriminate|]. cbn in Hr, Hd. cbn [map].
  destruct (q x) eqn:Q.
  - destruct D as [|dr D]; [discriminate|]. cbn [assign_rows]. destruct a as [|a]; [cbn; rewrite Q; reflexivity|].
    cbn [nth]. rewrite IH by (cbn in Hd, Ha; lia). unfold rank. cbn. rewrite Q. reflexivity.
  - cbn [assign_rows]. destruct a as [|a]; [cbn; rewrite Q; reflexivity|]. cbn [nth]. rewrite IH by (cbn in Ha; auto; lia). unfold rank. cbn. rewrite Q. reflexivity.
Qed.

Variable f : list (list N) -> list (list N) -> result (list (list (dval N))).
Variable rnd : dval N -> dval N.
Definition strO (s : st) (i : nat) : string := label_str (obj_label s i).
Definition strC (s : st) (c : cand) : string := label_str (cand_label s c).
Definition vecO (s : st) (i : nat) : list N := flatten (estimate (s_store s i)).

Definition good (s : st) (obs : list nat) (cs : list cand) (l : string) (D : matrix N) : Prop := exists so sc,
  stack (map (vecO s) (filter (fun i => String.eqb (strO s i) l) obs)) = Ret so /\
  stack (map (cand_vector s) (filter (fun c => String.eqb (strC s c) l) cs)) = Ret sc /\ f sc so = Ret D /\
  List.length D = List.length (filter (fun c => String.eqb (strC s c) l) cs) /\
  Forall (fun r => List.length r = List.length (filter (fun i => String.eqb (strO s i) l) obs)) D.
Lemma good_fun s obs cs l D D' : good s obs cs l D -> good s obs cs l D' -> D = D'.
Proof. intros (so & sc & A & B & C & _) (so' & sc' & A' & B' & C' & _). congruence. Qed.
Definition value (s : st) (obs : list nat) (cs : list cand) (D : matrix N) (l : string) (a b : nat) : dval N :=
  nth (rank (fun i => String.eqb (strO s i) l) obs b) (nth (rank (fun c => String.eqb (strC s c) l) cs a) (map (map rnd) D) []) DNaN.

Lemma loop_spec s obs cs labels c0 : forall M M', rect (List.length cs) (List.length obs) M ->
  vectorized_loop rnd f s obs cs labels M = Ret M' ->
  (forall l, In l labels -> exists D, good s obs cs l D) /\
  forall a b, a < List.length cs -> b < List.length obs ->
    (forall l D, In l labels -> good s obs cs l D -> strC s (nth a cs c0) = l -> strO s (nth b obs 0) = l -> entry M' a b = value s obs cs D l a b) /\
    (~ (strC s (nth a cs c0) = strO s (nth b obs 0) /\ In (strC s (nth a cs c0)) labels) -> entry M' a b = entry M a b).
Proof.
  induction labels as [|l labels IH]; intros M M' HM E.
  - cbn in E. injection E as <-. split; [intros l []|]. intros a b Ha Hb. split; [intros l D []|reflexivity].
  - cbn [vectorized_loop] in E.
    destruct (stack (map (fun i => flatten (estimate (s_store s i))) _)) as [so|] eqn:E1; [|discriminate].
    destruct (stack (map (cand_vector s) _)) as [sc|] eqn:E2; [|discriminate]. destruct (f sc so) as [D|] eqn:E3; [|discriminate].
    match type of E with (if ?x && ?y then _ else _) = _ => destruct x eqn:E4; [|discriminate]; destruct y eqn:E5; [|discriminate] end. cbn [andb] in E.
    apply Nat.eqb_eq in E4. assert (E5' : Forall (fun r => List.length r = List.length (filter (fun i => String.eqb (strO s i) l) obs)) D).
    { apply Forall_forall. intros r Hr. rewrite forallb_forall in E5. apply Nat.eqb_eq, E5, Hr. }
    assert (G : good s obs cs l D) by (exists so, sc; repeat split; assumption).
    destruct (IH _ M' (assign_rows_rect _ _ _ _ _ _ HM) E) as [I1 I2]. split.
    + intros l' [<-|Hl']; [exists D; exact G|apply I1, Hl'].
    + intros a b Ha Hb. destruct (I2 a b Ha Hb) as [J1 J2].
      assert (X : entry (assign_rows (map (fun c => String.eqb (strC s c) l) cs) (map (fun i => String.eqb (strO s i) l) obs) (map (map rnd) D) M) a b =
        if String.eqb (strC s (nth a cs c0)) l then if String.eqb (strO s (nth b obs 0)) l then value s obs cs D l a b else entry M a b else entry M a b).
      { unfold entry. destruct HM as [HM1 HM2]. rewrite (assign_rows_nth _ c0) by (rewrite ?map_length; auto).
        destruct (String.eqb (strC s (nth a cs c0)) l) eqn:Ec; [|reflexivity].
        assert (Hrow : List.length (nth a M []) = List.length obs) by (rewrite Forall_forall in HM2; apply HM2, nth_In; lia).
        assert (Hrk : rank (fun c => String.eqb (strC s c) l) cs a < List.length D).
        { rewrite E4. unfold rank. clear - Ha Ec. revert a Ha Ec. induction cs as [|x l0 IH]; intros a Ha Ec; [cbn in Ha; lia|]. destruct a as [|a]; cbn in *.
          - unfold strC in Ec. rewrite Ec. cbn. lia.
          - destruct (String.eqb (strC s x) l) eqn:Q; unfold strC in Q; rewrite Q; cbn; [apply -> Nat.succ_lt_mono|]; apply IH; auto; lia. }
        rewrite (assign_row_nth _ 0); [reflexivity|exact Hrow| |exact Hb].
        rewrite Forall_forall in E5'. rewrite (nth_indep _ [] (map rnd [])) by (rewrite map_length; exact Hrk). rewrite map_nth, map_length. apply E5', nth_In, Hrk. }
      split.
      * intros l' D' [<-|Hl'] G' Ec Eo.
        -- rewrite (good_fun _ _ _ _ _ _ G' G). destruct (in_dec string_dec l labels) as [Hin|Hout]; [apply (J1 l D Hin G Ec Eo)|].
           rewrite J2 by (rewrite Ec; tauto). unfold strC, strO in X, Ec, Eo. etransitivity; [exact X|]. rewrite Ec, Eo, String.eqb_refl. reflexivity.
        -- apply (J1 l' D' Hl' G' Ec Eo).
      * intros Hn. rewrite J2 by (intros [H1 H2]; apply Hn; split; [exact H1|right; exact H2]). etransitivity; [exact X|].
        destruct (String.eqb_spec (strC s (nth a cs c0)) l) as [Ec|]; [|reflexivity]. destruct (String.eqb_spec (strO s (nth b obs 0)) l) as [Eo|]; [|reflexivity].
        elim Hn. split; [congruence|left; congruence].
Qed.
Lemma loop_total s obs cs labels : (forall l, In l labels -> exists D, good s obs cs l D) -> forall M, exists M', vectorized_loop rnd f s obs cs labels M = Ret M'.
Proof.
  induction labels as [|l labels IH]; intros H M; [eexists; reflexivity|]. destruct (H l (or_introl eq_refl)) as (D & so & sc & E1 & E2 & E3 & E4 & E5).
  cbn [vectorized_loop]. unfold vecO, strO in E1. unfold strC in E2. rewrite E1, E2, E3. unfold strC in E4. rewrite E4, Nat.eqb_refl. cbn [andb].
  replace (forallb _ D) with true; [apply IH; intros; apply H; right; assumption|]. symmetry. apply forallb_forall. intros r Hr. rewrite Forall_forall in E5. apply Nat.eqb_eq, E5, Hr.
Qed.

Lemma common_labels a b x : In x (intersect1d (unique a) (unique b)) <-> In x a /\ In x b.
Proof. unfold intersect1d. rewrite filter_In, existsb_String, !unique_In. reflexivity. Qed.

Variable P : label -> bool.
Variable cls : nat -> bool.
Variable L : list (nat * nat).
Hypothesis P_str : forall a b, label_str a = label_str b -> P a = P b.
Notation sim := (sim (FO:=FO) (Some P) cls L).

Lemma pair_label s1 s2 i j : sim s1 s2 -> In (i, j) L -> obj_label s1 i = obj_label s2 j.
Proof. intros S H. apply (core_conf _ _ (sm_obj _ _ _ _ _ S i j H)). Qed.
Lemma pair_estimate s1 s2 i j : sim s1 s2 -> In (i, j) L -> estimate (s_store s1 i) = estimate (s_store s2 j).
Proof.
  intros S H. pose proof (sm_obj _ _ _ _ _ S i j H) as E. pose proof (core_fields _ _ E) as (_ & _ & _ & _ & _ & _ & _ & _ & _ & Ef & Ea).
  pose proof (core_conf _ _ E) as (E1 & E2 & _). unfold estimate, get_estimate, dim_z. rewrite E1, E2, Ef, Ea. reflexivity.
Qed.

Lemma vector_isolated : isolated (FO:=FO) (Some P) cls L rnd (VectorizedDistance f).
Proof.
  intros s1 s2 obs1 obs2 cs1 cs2 M S Ko Kc RO RC E. cbn [get_distances] in *.
  rewrite Forall_forall in Ko, Kc.
  destruct obs1 as [|o0 obs1'].
  { split; [intros a b c i _ X; destruct b; discriminate|]. inversion RO; subst. cbn. eexists. split; [reflexivity|]. intros a b _ Hb. cbn in Hb. lia. }
  destruct cs1 as [|c0 cs1'].
  { split; [intros a b c i X; destruct a; discriminate|]. inversion RC; subst. destruct obs2; cbn; (eexists; split; [reflexivity|]; intros a b Ha; cbn in Ha; lia). }
  set (obs1 := o0 :: obs1') in *. set (cs1 := c0 :: cs1') in *.
  assert (E' : vectorized_loop rnd f s1 obs1 cs1 (intersect1d (unique (map (strO s1) obs1)) (unique (map (strC s1) cs1))) (map (fun _ => map (fun _ => DPInf) obs1) cs1) = Ret M) by exact E.
  clear E. clearbody obs1 cs1.
  assert (R0 : forall (obs : list nat) (cs : list cand), rect (List.length cs) (List.length obs) (map (fun _ => map (fun _ => DPInf) obs) cs : matrix N)).
  { intros obs cs. split; [apply map_length|]. apply Forall_forall. intros r Hr. apply in_map_iff in Hr as (? & <- & _). apply map_length. }
  assert (I0 : forall (obs : list nat) (cs : list cand) a b, a < List.length cs -> b < List.length obs -> entry (map (fun _ => map (fun _ => DPInf) obs) cs : matrix N) a b = DPInf).
  { intros obs cs a b Ha Hb. unfold entry. rewrite (nth_indep _ [] (map (fun _ => DPInf) obs)) by (rewrite map_length; exact Ha).
    rewrite (map_nth (fun _ => map (fun _ => DPInf) obs) cs c0). rewrite (nth_indep _ DNaN DPInf) by (rewrite map_length; exact Hb).
    apply (map_nth (fun _ => DPInf) obs 0). }
  destruct (loop_spec s1 obs1 cs1 _ c0 _ M (R0 obs1 cs1) E') as [G1 H1].
  assert (Pc : forall c, In c cs1 -> P (cand_label s1 c) = csel cls L c) by (intros c Hc; apply (csel_label (Some P) cls L P s1 s2); auto).
  assert (Po : forall i, In i obs1 -> P (obj_label s1 i) = chosen L i) by (intros i Hi; apply (sm_olab _ _ _ _ _ S P i eq_refl), Ko, Hi).
  split.
  - intros a b c i Ha Hb Hn. assert (La : a < List.length cs1) by (apply nth_error_Some; congruence). assert (Lb : b < List.length obs1) by (apply nth_error_Some; congruence).
    rewrite (proj2 (H1 a b La Lb)); [apply I0; assumption|]. rewrite (nth_error_nth _ _ c0 Ha), (nth_error_nth _ _ 0 Hb). intros [X _].
    apply P_str in X. rewrite (Pc c), (Po i) in X by (eapply nth_error_In; eassumption). contradiction.
  - assert (Lab2 : forall l, In l (intersect1d (unique (map (strO s2) obs2)) (unique (map (strC s2) cs2))) ->
      In l (intersect1d (unique (map (strO s1) obs1)) (unique (map (strC s1) cs1))) /\
      (forall i, In i obs1 -> String.eqb (strO s1 i) l = true -> chosen L i = true) /\ (forall c, In c cs1 -> String.eqb (strC s1 c) l = true -> csel cls L c = true)).
    { intros l Hl. apply common_labels in Hl as [Ho Hc]. apply in_map_iff in Ho as (j & Ej & Hj). apply in_map_iff in Hc as (c2 & Ec & Hc2).
      assert (X : exists i, In i (filter (chosen L) obs1) /\ In (i, j) L).
      { clear - RO Hj. unfold relO in RO. induction RO as [|x y lx ly Hxy F IH]; [destruct Hj|]. destruct Hj as [<-|Hj]; [exists x; split; [left; reflexivity|exact Hxy]|].
        destruct (IH Hj) as (i & A & B). exists i. split; [right; exact A|exact B]. }
      assert (Y : exists c1, In c1 (filter (csel cls L) cs1) /\ crel cls L c1 c2).
      { clear - RC Hc2. unfold relC in RC. induction RC as [|x y lx ly Hxy F IH]; [destruct Hc2|]. destruct Hc2 as [<-|Hj]; [exists x; split; [left; reflexivity|exact Hxy]|].
        destruct (IH Hj) as (i & A & B). exists i. split; [right; exact A|exact B]. }
      destruct X as (i & Hi & Hij). destruct Y as (c1 & Hc1 & R1). apply filter_In in Hi as [Hi Hch]. apply filter_In in Hc1 as [Hc1 Hcs].
      assert (Si : strO s1 i = l) by (unfold strO; rewrite (pair_label s1 s2 i j S Hij); exact Ej).
      assert (Sc : strC s1 c1 = l) by (unfold strC; rewrite (crel_label (Some P) cls L s1 s2 _ _ S R1); exact Ec).
      split; [apply common_labels; split; apply in_map_iff; eauto|]. split.
      - intros i' Hi' X. apply String.eqb_eq in X. rewrite <- (Po i' Hi'), <- Hch, <- (Po i Hi). apply P_str. unfold strO in *. congruence.
      - intros c' Hc' X. apply String.eqb_eq in X. rewrite <- (Pc c' Hc'), <- Hch, <- (Po i Hi). apply P_str. unfold strO, strC in *. congruence. }
    assert (QO : forall l i j, pairL L i j -> String.eqb (strO s1 i) l = String.eqb (strO s2 j) l) by (intros l i j H; unfold strO; rewrite (pair_label s1 s2 i j S H); reflexivity).
    assert (QC : forall l c c', crel cls L c c' -> String.eqb (strC s1 c) l = String.eqb (strC s2 c') l) by (intros l c c' H; unfold strC; rewrite (crel_label (Some P) cls L s1 s2 _ _ S H); reflexivity).
    assert (Good2 : forall l, In l (intersect1d (unique (map (strO s2) obs2)) (unique (map (strC s2) cs2))) -> forall D, good s1 obs1 cs1 l D -> good s2 obs2 cs2 l D).
    { intros l Hl D (so & sc & A1 & A2 & A3 & A4 & A5). destruct (Lab2 l Hl) as (_ & B1 & B2).
      assert (Eo : map (vecO s1) (filter (fun i => String.eqb (strO s1 i) l) obs1) = map (vecO s2) (filter (fun i => String.eqb (strO s2 i) l) obs2)).
      { apply (filter_related (pairL L) (chosen L)); auto. intros i j H. unfold vecO. rewrite (pair_estimate s1 s2 i j S H). reflexivity. }
      assert (Ec : map (cand_vector s1) (filter (fun c => String.eqb (strC s1 c) l) cs1) = map (cand_vector s2) (filter (fun c => String.eqb (strC s2 c) l) cs2)).
      { apply (filter_related (crel cls L) (csel cls L)); auto. intros [r|i] [r'|j] H; cbn in H |- *; try contradiction.
        - destruct H as [<- Hr]. rewrite (sm_heap _ _ _ _ _ S r Hr). reflexivity.
        - rewrite (pair_estimate s1 s2 i j S H). reflexivity. }
      exists so, sc. rewrite <- Eo, <- Ec. split; [exact A1|]. split; [exact A2|]. split; [exact A3|].
      apply (f_equal (@List.length _)) in Eo, Ec. rewrite !map_length in Eo, Ec. rewrite <- Eo, <- Ec. auto. }
    destruct (loop_total s2 obs2 cs2 (intersect1d (unique (map (strO s2) obs2)) (unique (map (strC s2) cs2)))) with (M := map (fun _ : cand => map (fun _ : nat => @DPInf N) obs2) cs2) as [M' EM'].
    { intros l Hl. destruct (G1 l (proj1 (Lab2 l Hl))) as [D HD]. exists D. apply (Good2 l Hl D HD). }
    destruct (loop_spec s2 obs2 cs2 _ c0 _ M' (R0 obs2 cs2) EM') as [G2 H2].
    exists (match obs2, cs2 with [], _ => map (fun _ : cand => map (fun _ : nat => DPInf) obs2) cs2 | _, [] => map (fun _ : cand => map (fun _ : nat => DPInf) obs2) cs2 | _, _ => M' end). split.
    { unfold vectorized_distances. destruct obs2; [reflexivity|]. destruct cs2; [reflexivity|]. exact EM'. }
    intros a b Ha Hb. replace (match obs2, cs2 with [], _ => _ | _, [] => _ | _, _ => M' end) with M' by (destruct obs2; [cbn in Hb; lia|]; destruct cs2; [cbn in Ha; lia|]; reflexivity).
    pose proof (Forall2_len _ _ _ RC) as LC. pose proof (Forall2_len _ _ _ RO) as LO.
    destruct (pos_spec (csel cls L) cs1 c0 a) as (P1 & _ & P2); [lia|]. destruct (pos_spec (chosen L) obs1 0 b) as (P3 & _ & P4); [lia|].
    assert (Rc : crel cls L (nth (pos (csel cls L) cs1 a) cs1 c0) (nth a cs2 c0)) by (rewrite P2; apply Forall2_nth; [exact RC|lia]).
    assert (Ro : pairL L (nth (pos (chosen L) obs1 b) obs1 0) (nth b obs2 0)) by (rewrite P4; apply Forall2_nth; [exact RO|lia]).
    assert (Sc : strC s1 (nth (pos (csel cls L) cs1 a) cs1 c0) = strC s2 (nth a cs2 c0)) by (unfold strC; rewrite (crel_label (Some P) cls L s1 s2 _ _ S Rc); reflexivity).
    assert (So : strO s1 (nth (pos (chosen L) obs1 b) obs1 0) = strO s2 (nth b obs2 0)) by (unfold strO; rewrite (pair_label s1 s2 _ _ S Ro); reflexivity).
    destruct (H1 _ _ P1 P3) as [X1 X2]. destruct (H2 a b Ha Hb) as [Y1 Y2]. rewrite Sc, So in X1, X2.
    destruct (string_dec (strC s2 (nth a cs2 c0)) (strO s2 (nth b obs2 0))) as [Eq|Ne].
    + set (l := strC s2 (nth a cs2 c0)) in *. assert (Hl : In l (intersect1d (unique (map (strO s2) obs2)) (unique (map (strC s2) cs2)))).
      { apply common_labels. split; [rewrite Eq|unfold l]; apply in_map, nth_In; assumption. }
      destruct (Lab2 l Hl) as (Hl1 & B1 & B2). destruct (G1 l Hl1) as [D HD].
      rewrite (X1 l D Hl1 HD eq_refl (eq_sym Eq)), (Y1 l D Hl (Good2 l Hl D HD) eq_refl (eq_sym Eq)). unfold value.
      rewrite <- (rank_related (crel cls L) (csel cls L) (fun c => String.eqb (strC s1 c) l) (fun c => String.eqb (strC s2 c) l) cs1 cs2 a) by auto.
      rewrite <- (rank_related (pairL L) (chosen L) (fun c => String.eqb (strO s1 c) l) (fun c => String.eqb (strO s2 c) l) obs1 obs2 b) by auto. reflexivity.
    + rewrite X2, Y2 by (intros [? _]; contradiction). rewrite !I0 by assumption. reflexivity.
Qed.
End V.

(** What a hit or a merge does depends only on the objects and detections involved.  Used for C92. *)
From Coq Require Import ZArith Bool Arith String List Lia.
From Verif Require Import Model.Num Model.Base Model.Matching Model.Filter Model.Tracker Spec.CallSpec Spec.ExampleVideo Spec.LabelSpec
  Proofs.TrackerFrame Proofs.Identity Proofs.Effect Proofs.LabelSim.
Import ListNotations.

Section Local.
Context {N : Num} {FO : filter_ops N}.
Notation st := (st FO).
Notation tobj := (tobj FO).
Notation det := (detection N).

Ltac core E := match type of E with anonymous ?a = anonymous ?b =>
  destruct a as [[? ? ? ? ? ? ? ? ? ? ?] ? ? ? ? ? ? ? ? ? ? ? ? ? ?], b as [[? ? ? ? ? ? ? ? ? ? ?] ? ? ? ? ? ? ? ? ? ? ? ? ? ?];
  unfold anonymous, anonymous_conf in E; cbn in E; injection E; clear E; intros; subst end.

(** Object [i] of [s] and object [j] of [t] are the same, and so are the detections in [F], among which are their
    past detections. *)
Record loc (F : list nat) (i j : nat) (s t : st) : Prop := MkLoc {
  lc_obj : anonymous (s_store s i) = anonymous (s_store t j);
  lc_past : incl (o_past (s_store s i)) F;
  lc_heap : forall q, In q F -> s_heap s q = s_heap t q
}.

Section At.
Variables (F : list nat) (i j : nat).
Notation loc := (loc F i j).

Lemma loc_obj f1 f2 s t : loc s t -> anonymous (f1 (s_store s i)) = anonymous (f2 (s_store t j)) ->
  incl (o_past (f1 (s_store s i))) F -> loc (mod_obj i f1 s) (mod_obj j f2 t).
Proof. intros [A B C] E P. split; cbn; rewrite ?upd_same; auto. Qed.
Lemma loc_plain f s t : plain f -> loc s t -> loc (mod_obj i f s) (mod_obj j f t).
Proof. intros Pf [A B C]. destruct (Pf _ _ A) as (E1 & _ & E3 & _). split; cbn; rewrite ?upd_same; auto. rewrite E3. exact B. Qed.
Lemma loc_det r f s t : loc s t -> loc (mod_det r f s) (mod_det r f t).
Proof.
  intros [A B C]. split; cbn; auto. intros q Hq. unfold upd. destruct (Nat.eqb_spec q r) as [->|Hne]; auto. rewrite C; auto.
Qed.
Lemma loc_ids s t : loc s t -> loc (acquire_ids i s) (acquire_ids j t).
Proof. intros [A B C]. split; cbn; rewrite ?upd_same; auto. Qed.

Definition lagree {A} (x1 x2 : st * result A) : Prop := snd x1 = snd x2 /\ loc (fst x1) (fst x2).
Lemma lret {A} (a : A) s1 s2 : loc s1 s2 -> lagree (s1, Ret a) (s2, Ret a).
Proof. intros S. split; auto. Qed.
Lemma lraise {A} e s1 s2 : loc s1 s2 -> lagree (A:=A) (s1, Raise e) (s2, Raise e).
Proof. intros S. split; auto. Qed.

Lemma loc_cond_add r s t : In r F -> loc s t -> lagree (cond_add_past i r s) (cond_add_past j r t).
Proof.
  intros Hr S. unfold cond_add_past. pose proof (lc_obj _ _ _ _ _ S) as E.
  pose proof (core_fields _ _ E) as (_ & _ & _ & _ & Ea & _ & _ & _ & Ep & _). pose proof (core_conf _ _ E) as (_ & _ & _ & _ & _ & _ & _ & _ & El & _).
  pose proof (lc_past _ _ _ _ _ S) as Fp. rewrite <- El, <- Ep, <- Ea. destruct (Nat.eqb _ 0); [apply lret, S|].
  assert (Sd : loc (mod_det r (d_set_age (o_age (s_store s i))) s) (mod_det r (d_set_age (o_age (s_store s i))) t)) by (apply loc_det; auto).
  destruct (Nat.ltb _ _).
  - apply lret. apply loc_obj; auto; cbn.
    + clear - E. core E. reflexivity.
    + apply incl_app; [exact Fp|intros x [<-|[]]; exact Hr].
  - destruct (o_past (s_store s i)) as [|first rest] eqn:Eq; [apply lraise, S|].
    rewrite <- (lc_heap _ _ _ _ _ S first) by (apply Fp; left; reflexivity). destruct (d_age _); [|apply lraise, S]. destruct (Z.leb _ _); [|apply lret, S].
    apply lret. apply loc_obj; auto; cbn.
    + clear - E. core E. reflexivity.
    + apply incl_app; [intros x Hx; apply Fp; right; exact Hx|intros x [<-|[]]; exact Hr].
Qed.

Lemma loc_hit r p s1 s2 : In r F -> loc s1 s2 -> lagree (hit i r p s1) (hit j r p s2).
Proof.
  intros Ho S. pose proof (loc_cond_add r s1 s2 Ho S) as [E S']. unfold hit.
  destruct (cond_add_past i r s1) as [t1 [u1|e1]], (cond_add_past j r s2) as [t2 [u2|e2]]; cbn [fst snd] in E, S'; try discriminate.
  2: { injection E as ->. apply lraise, S'. }
  clear E S s1 s2 u1 u2. rename t1 into s1, t2 into s2, S' into S.
  assert (S1 : loc (mod_obj i (set_last_det r) s1) (mod_obj j (set_last_det r) s2)).
  { apply loc_obj; auto; cbn; [|exact (lc_past _ _ _ _ _ S)]. pose proof (lc_obj _ _ _ _ _ S) as E. core E. reflexivity. }
  set (a1 := mod_obj i (set_last_det r) s1) in *. set (a2 := mod_obj j (set_last_det r) s2) in *. clearbody a1 a2. clear S s1 s2.
  assert (S2 : loc (mod_obj i (fun o => set_hit (Z.min (o_hit o + 2 * p) (oc_hit_counter_max (o_conf o))) o) a1)
                   (mod_obj j (fun o => set_hit (Z.min (o_hit o + 2 * p) (oc_hit_counter_max (o_conf o))) o) a2)).
  { apply loc_plain; auto. apply plain_hit. intros o o' E. core E. reflexivity. }
  set (b1 := mod_obj i _ a1) in *. set (b2 := mod_obj j _ a2) in *. clearbody b1 b2. clear S1 a1 a2.
  pose proof (core_fields _ _ (lc_obj _ _ _ _ _ S2)) as (E2 & _ & _ & _ & _ & E8 & _).
  pose proof (core_conf _ _ (lc_obj _ _ _ _ _ S2)) as (_ & _ & _ & _ & E1 & _).
  rewrite <- E1, <- E2, <- E8.
  set (cnd := (o_initializing (s_store b1 i) && (oc_delay (o_conf (s_store b1 i)) <? o_hit (s_store b1 i))%Z)%bool).
  assert (S3 : loc (if cnd then acquire_ids i (mod_obj i (set_initializing false) b1) else b1)
                   (if cnd then acquire_ids j (mod_obj j (set_initializing false) b2) else b2)).
  { destruct cnd; auto. apply loc_ids. apply loc_plain; auto. apply plain_init. }
  set (c1 := if cnd then acquire_ids i (mod_obj i (set_initializing false) b1) else b1) in *.
  set (c2 := if cnd then acquire_ids j (mod_obj j (set_initializing false) b2) else b2) in *.
  clearbody c1 c2. clear S2 E1 E2 E8 cnd b1 b2.
  pose proof (lc_obj _ _ _ _ _ S3) as Ec.
  pose proof (core_fields _ _ Ec) as (_ & _ & _ & _ & _ & _ & E10 & E11 & _).
  pose proof (core_conf _ _ Ec) as (K1 & K2 & _ & _ & _ & K6 & _).
  assert (Ed : dim_z (s_store c1 i) = dim_z (s_store c2 j)) by (unfold dim_z; rewrite K1, K2; reflexivity).
  rewrite <- K1, <- K2, <- K6, <- E10, <- E11, <- Ed, <- (lc_heap _ _ _ _ _ S3 r Ho).
  set (mask := over_threshold _ _ (s_heap c1 r)).
  set (counted := match d_scores (s_heap c1 r) with Some _ => mask | None => _ end).
  set (z := flatten (d_absolute_points (s_heap c1 r))).
  destruct (negb (Nat.eqb (List.length counted) _)); [apply lraise, S3|].
  assert (S4 : loc (mod_obj i (fun o => set_point_hits (point_hits_update p (oc_pointwise_max (o_conf o)) counted (o_point_hits o)) o) c1)
                   (mod_obj j (fun o => set_point_hits (point_hits_update p (oc_pointwise_max (o_conf o)) counted (o_point_hits o)) o) c2)).
  { apply loc_plain; auto. apply plain_ph. intros o o' E. core E. reflexivity. }
  set (x1 := mod_obj i _ c1) in *. set (x2 := mod_obj j _ c2) in *. clearbody x1 x2.
  destruct (_ || _)%bool; [apply lraise, S4|].
  set (diagonal := repeat_each _ _).
  assert (S5 : loc (mod_obj i (fun o => set_filter (f_update FO (o_filter o) z diagonal) o) x1)
                   (mod_obj j (fun o => set_filter (f_update FO (o_filter o) z diagonal) o) x2)).
  { apply loc_plain; auto. apply plain_filter. intros o o' E. core E. reflexivity. }
  set (y1 := mod_obj i _ x1) in *. set (y2 := mod_obj j _ x2) in *. clearbody y1 y2.
  destruct (negb (Nat.eqb (List.length (o_once _)) _)); [apply lraise, S5|].
  apply lret. apply loc_plain; auto; [apply plain_once; intros o o' E; core E; reflexivity|].
  apply loc_plain; auto. apply plain_filter; intros o o' E; core E; reflexivity.
Qed.

Lemma loc_add_pasts rs : forall s1 s2, incl rs F -> loc s1 s2 -> lagree (add_pasts i rs s1) (add_pasts j rs s2).
Proof.
  induction rs as [|r rs IH]; intros s1 s2 I S; [apply lret, S|]. cbn [add_pasts].
  pose proof (loc_cond_add r s1 s2 (I r (or_introl eq_refl)) S) as [E S'].
  destruct (cond_add_past i r s1) as [t1 [u1|e1]], (cond_add_past j r s2) as [t2 [u2|e2]]; cbn [fst snd] in E, S'; try discriminate; auto.
  - apply IH; auto. intros x Hx. apply I. right. exact Hx.
  - injection E as ->. apply lraise, S'.
Qed.
End At.

Lemma loc_merge F i j k l s1 s2 : loc F i j s1 s2 -> loc F k l s1 s2 -> lagree F i j (merge i k s1) (merge j l s2).
Proof.
  intros S Sc. unfold merge. pose proof (lc_obj _ _ _ _ _ Sc) as Ec. pose proof (core_fields _ _ Ec) as (_ & _ & _ & El & _ & _ & _ & _ & Ep & _).
  rewrite <- Ep. pose proof (lc_obj _ _ _ _ _ S) as Eo.
  apply loc_add_pasts; [exact (lc_past _ _ _ _ _ Sc)|]. apply loc_obj; auto; cbn.
  - set (c1 := s_store s1 k) in *. set (c2 := s_store s2 l) in *. set (o1 := s_store s1 i) in *. set (o2 := s_store s2 j) in *.
    clearbody c1 c2 o1 o2. clear - Ec Eo. core Ec. core Eo. reflexivity.
  - exact (lc_past _ _ _ _ _ S).
Qed.

(** What else they change. *)
Record outside (O F : list nat) (s s' : st) : Prop := MkOutside {
  ou_store : forall i, ~ In i O -> s_store s' i = s_store s i;
  ou_heap : forall q, ~ In q F -> s_heap s' q = s_heap s q
}.
Lemma outside_trans O F a b c : outside O F a b -> outside O F b c -> outside O F a c.
Proof. intros [A B] [C D]. split; intros x Hx; rewrite ?C, ?D by assumption; auto. Qed.
Lemma past_step_outside h (o : tobj) r past' h' : past_step h o r past' h' -> forall q, q <> r -> h' q = h q.
Proof. intros P q Hq. destruct P; auto; apply upd_other; exact Hq. Qed.
Lemma hit_outside i r p s s' u F : In r F -> hit i r p s = (s', Ret u) -> outside [i] F s s'.
Proof.
  intros Hr E. apply hit_ret in E as (past' & h' & Hp & Eh & _ & _ & Fr & _). split.
  - intros k Hk. apply (fr_store _ _ _ Fr). intros ->. apply Hk. left. reflexivity.
  - intros q Hq. rewrite Eh. apply (past_step_outside _ _ _ _ _ Hp). intros ->. exact (Hq Hr).
Qed.
Lemma add_pasts_outside i rs F : forall s s' u, incl rs F -> add_pasts i rs s = (s', Ret u) -> outside [i] F s s'.
Proof.
  induction rs as [|r rs IH]; intros s s' u Hi E; cbn in E.
  - injection E as <- _. split; auto.
  - destruct (cond_add_past i r s) as [t [u0|e]] eqn:E0; [|discriminate].
    apply cond_add_past_ret in E0 as (past' & h' & Hp & Eh & _ & Fr & _). eapply outside_trans; [|eapply IH; [|exact E]].
    + split.
      * intros k Hk. apply (fr_store _ _ _ Fr). intros ->. apply Hk. left. reflexivity.
      * intros q Hq. rewrite Eh. apply (past_step_outside _ _ _ _ _ Hp). intros ->. apply Hq, Hi. left. reflexivity.
    + intros x Hx. apply Hi. right. exact Hx.
Qed.
Lemma merge_outside i k F s s' u : incl (o_past (s_store s k)) F -> merge i k s = (s', Ret u) -> outside [i] F s s'.
Proof.
  unfold merge. intros Hi E. apply (add_pasts_outside i _ F) in E; [|exact Hi]. destruct E as [A B]. split.
  - intros x Hx. rewrite A by exact Hx. cbn. apply upd_other. intros ->. apply Hx. left. reflexivity.
  - intros q Hq. rewrite B by exact Hq. reflexivity.
Qed.
End Local.

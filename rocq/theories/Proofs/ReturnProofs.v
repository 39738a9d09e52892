(** C98: association with re-identification distances that recognize the things. *)
From Coq Require Import ZArith Bool Lia List Arith Permutation.
From Verif Require Import Model.Num Model.Base Model.Matching Model.Filter Model.Tracker Spec.MatchingSpec.
From Verif Require Import Proofs.NumLaws Proofs.MatchingProofs Proofs.TrackerFrame Proofs.Identity Proofs.Effect Proofs.CallEffect Proofs.CallProps Proofs.CallTheorems3 Proofs.PhasesProofs Proofs.GroundTruth.
From Verif Require Import Spec.CallSpec Spec.PhasesSpec Spec.GroundTruthSpec Spec.ReturnSpec.
Import ListNotations.
Local Open Scope nat_scope.

Section P.
Context {N : Num} (laws : NumLaws N) {FO : filter_ops N}.
Notation st := (st FO).
Variable thing : Type.
Variable who : nat -> thing.

Definition rnear (c : tconf FO) f (s : st) (j i : nat) : Prop :=
  obj_label s j = obj_label s i /\ exists d, f (VObj (view_obj s j)) (view_obj s i) = Ret d /\ dlt (tc_rnd c d) (tc_reid_threshold c).

Lemma clear_merges c f objects js p (s s' : st) G (ident : nat -> thing) :
  tc_reid_distance c = Some f -> phase_merges c objects js p s s' G ->
  (forall j j', In j js -> In j' js -> ident j = ident j' -> j = j') ->
  (forall i j, In i objects -> In j js -> (rnear c f s j i <-> ident j = ident i)) ->
  (forall i j dist, In (i, j, dist) G -> In i objects /\ In j js /\ ident j = ident i) /\
  (forall i j, In i objects -> In j js -> ident j = ident i -> exists i' dist, In (i', j, dist) G).
Proof.
  intros Ef PM Hid Hn. destruct PM as [(X & _)|(f' & M & pairs & sa & X & [Pm Pr Pn Pf Pmin _ _] & EG & _)]; [congruence|]. rewrite Ef in X. injection X as <-.
  destruct Pf as (_ & Prg & Pbl & Pst & _). rewrite map_length in *.
  assert (Ent : forall a b j i, nth_error js a = Some j -> nth_error objects b = Some i -> (dlt (entry M a b) (tc_reid_threshold c) <-> ident j = ident i)).
  { intros a b j i Ha Hb. assert (Hj : In j js) by (eapply nth_error_In; eauto). assert (Hi : In i objects) by (eapply nth_error_In; eauto).
    rewrite <- (Hn i j Hi Hj). assert (Hne : map CObj js <> []) by (destruct js; [destruct Hj|discriminate]).
    pose proof (proj2 (scalar_entries _ _ _ _ _ _ (Pm Hne)) a b (CObj j) i) as E. rewrite nth_error_map, Ha in E. specialize (E eq_refl Hb). cbn [cand_label view_cand] in E.
    fold (obj_label s j) in E. unfold rnear. destruct (label_eqb (obj_label s j) (obj_label s i)) eqn:El.
    - apply label_eqb_eq in El. cbn in E. destruct (f (VObj (view_obj s j)) (view_obj s i)) as [d|e]; [|discriminate]. injection E as <-.
      split; [intros X; split; [exact El|eauto]|intros (_ & d' & X & Y); injection X as <-; exact Y].
    - cbn in E. injection E as <-. split; [intros X; unfold dlt in X; destruct (tc_reid_threshold c); discriminate|]. intros [X _]. apply label_eqb_eq in X. congruence. }
  split.
  - intros i j dist Hin. rewrite EG in Hin. destruct (mk_hit_in _ _ _ _ _ _ _ _ _ Prg eq_refl eq_refl Hin) as (a & b & K1 & K2 & K3 & _).
    split; [eapply nth_error_In; eauto|]. split; [eapply nth_error_In; eauto|]. apply (Ent _ _ _ _ K2 K3), Pbl, K1.
  - intros i j Hi Hj E. apply In_nth_error in Hi as [b Hb]. apply In_nth_error in Hj as [a Ha].
    assert (La : a < length js) by (apply nth_error_Some; congruence). assert (Lb : b < length objects) by (apply nth_error_Some; congruence).
    assert (X : exists a' b', In (a', b') pairs /\ nth_error js a' = Some j).
    { destruct (Pst a b La Lb (proj2 (Ent _ _ _ _ Ha Hb) E)) as [K|[(b' & K & _)|(a' & K & _)]]; [eauto|eauto|].
      exists a', b. split; [exact K|]. destruct (Prg _ _ K) as [L _]. destruct (nth_error js a') as [j'|] eqn:E'; [|apply nth_error_None in E'; lia].
      f_equal. apply Hid; [eapply nth_error_In; eauto|eapply nth_error_In; eauto|]. rewrite E. apply (Ent _ _ _ _ E' Hb), Pbl, K. }
    destruct X as (a' & b' & K & K1). exists (nth b' objects 0), (entry M a' b'). rewrite EG. apply in_map_iff. exists (a', b'). split; [|exact K]. unfold mk_hit. cbn.
    rewrite (nth_error_nth _ _ 0 K1). reflexivity.
Qed.

Lemma upto_sym (d d' : detection N) : upto_age d d' -> upto_age d' d.
Proof. unfold upto_age. intuition congruence. Qed.
Lemma upto_map (h h' : nat -> detection N) l : (forall r, upto_age (h r) (h' r)) -> Forall2 upto_age (map h l) (map h' l).
Proof. intros H. induction l; cbn; constructor; auto. Qed.

Lemma rnear_same c f (s0 s2 s' : st) j i : reid_blind f -> (forall r, upto_age (s_heap s0 r) (s_heap s2 r)) -> (forall r, upto_age (s_heap s' r) (s_heap s2 r)) ->
  s_store s2 j = s_store s' j -> (exists m, s_store s2 i = set_min_distance m (s_store s0 i)) -> (rnear c f s2 j i <-> reid_near c f s0 s' j i).
Proof.
  intros B H0 H' Ej [m Ei]. assert (E : f (VObj (view_obj s' j)) (view_obj s0 i) = f (VObj (view_obj s2 j)) (view_obj s2 i)).
  { apply B; unfold same_view, same_view_min, view_obj; cbn.
    - rewrite Ej. split; [reflexivity|]. split; [apply H'|apply upto_map, H'].
    - rewrite Ei. split; [eauto|]. split; [apply H0|apply upto_map, H0]. }
  unfold rnear, reid_near, obj_label. rewrite E, Ej, Ei. reflexivity.
Qed.

Theorem call_return c f dets p ct (s s' : st) out : rnd_ok (tc_rnd c) -> tracker_state c s -> tc_distance c = ScalarDistance f -> age_blind f ->
  (forall g, tc_reid_distance c = Some g -> reid_blind g) -> update c (Some dets) p ct s = (s', Ret out) -> one_each thing who c s ->
  unambiguous thing who c f (MkFrame dets p ct s s' out) -> recognized thing who c (MkFrame dets p ct s s' out) ->
  right_return thing who c (MkFrame dets p ct s s' out).
Proof.
  intros Hr Ht Ed Ab Rb E One [Un1 Un2] Rec. cbn [f_dets f_pre f_ct] in *. apply tracker_state_good in Ht as [T C].
  destruct (update_effect laws _ _ _ _ _ _ _ Hr (ti_nodup _ T) E) as (s0 & s1 & s2 & s3 & H1 & H2 & G & rest1 & news & un1 & He & Ho & Es0). cbn [dets_of] in *.
  unfold recognized in Rec. cbn [f_dets f_pre f_ct f_post] in Rec. rewrite <- Es0 in Un2, Rec.
  pose proof (effect_summary _ _ _ _ _ _ _ _ _ _ _ _ _ _ _ _ T He) as Su. destruct He as [ST PH1 (un2 & PH2) PM CF _].
  assert (Nk : NoDup (kept c s)) by (apply NoDup_filter, (ti_nodup _ T)).
  assert (Na : NoDup (alive c s)) by (apply NoDup_filter; auto).
  assert (Ni : NoDup (inits c s)) by (apply NoDup_filter; auto). assert (Nu : NoDup (uninits c s)) by (apply NoDup_filter; auto).
  assert (Nd : NoDup (dead c s)) by (apply NoDup_filter; auto).
  assert (Un : forall i r, In i (alive c s) -> In r dets -> (near c f s0 r i <-> who r = who (last_det s i))) by (intros i r Hi; apply Un2, matchable_alive, Hi).
  assert (One' : forall i j, In i (alive c s) -> In j (alive c s) -> who (last_det s i) = who (last_det s j) -> i = j) by (intros i j Hi Hj; apply One; apply matchable_alive; auto).
  destruct (phase_hits_facts _ _ _ _ _ _ _ _ _ Ni PH1) as (A1 & A2 & A3 & A4 & A5 & A6 & A7 & A8 & A9 & A10).
  destruct (phase_hits_facts _ _ _ _ _ _ _ _ _ Nu PH2) as (D1 & D2 & D3 & D4 & D5 & D6 & D7 & D8 & D9 & D10).
  destruct (clear_phase thing who c f (inits c s) dets p s0 s1 H1 rest1 un1 (fun i => who (last_det s i)) Ed PH1 Ni Un1) as [B1 B2].
  { intros i j Hi Hj. apply One'; apply inits_alive; auto. } { intros i r Hi Hr'. apply Un; auto. apply inits_alive, Hi. }
  assert (Nr1 : NoDup (map who rest1)).
  { assert (X : NoDup (map who (map h_det H1 ++ rest1))) by (eapply Permutation_NoDup; [apply Permutation_map, A2|exact Un1]). rewrite map_app in X. eapply NoDup_app_r; eauto. }
  destruct (clear_phase thing who c f (uninits c s) rest1 p s1 s2 H2 news un2 (fun i => who (last_det s i)) Ed PH2 Nu Nr1) as [C1 C2].
  { intros i j Hi Hj. apply One'; apply uninits_alive; auto. }
  { intros i r Hi Hr'. rewrite <- (near_same c f s0 s1 r i Ab A4); [|apply A9; intros X; eapply inits_not_uninits; eauto]. apply Un; [apply uninits_alive, Hi|apply B2, Hr']. }
  assert (AI : forall i, In i (alive c s) -> In i (inits c s) \/ In i (uninits c s)).
  { intros i Hi. unfold inits, uninits. rewrite !filter_In. destruct (o_initializing (s_store s i)); auto. }
  assert (Hit : forall i r, (exists dist, In (i, r, dist) (H1 ++ H2)) <-> In i (alive c s) /\ In r dets /\ who r = who (last_det s i)).
  { intros i r. split.
    - intros [d Hd]. apply in_app_iff in Hd as [Hd|Hd].
      + destruct (proj1 (B1 i r) (ex_intro _ d Hd)) as (X & Y & Z). split; [apply inits_alive, X|auto].
      + destruct (proj1 (C1 i r) (ex_intro _ d Hd)) as (X & Y & Z). split; [apply uninits_alive, X|]. split; [apply B2, Y|exact Z].
    - intros (Hi & Hr' & Ew). destruct (AI i Hi) as [X|X].
      + destruct (proj2 (B1 i r)) as [d Hd]; [auto|]. exists d. apply in_app_iff; auto.
      + destruct (proj2 (C1 i r)) as [d Hd]; [|exists d; apply in_app_iff; auto]. split; [exact X|]. split; [|exact Ew]. apply B2. split; [exact Hr'|].
        intros j Hj Ej. assert (j = i); [|subst; eapply inits_not_uninits; eauto]. apply One'; [apply inits_alive, Hj|exact Hi|congruence]. }
  assert (News : forall r, In r news <-> In r dets /\ forall i, In i (alive c s) -> who (last_det s i) <> who r).
  { intros r. rewrite C2, B2. split.
    - intros [[X Y] Z]. split; [exact X|]. intros i Hi. destruct (AI i Hi); auto.
    - intros [X Y]. split; [split; [exact X|]|]; intros i Hi; apply Y; [apply inits_alive|apply uninits_alive]; exact Hi. }
  set (fr := MkFrame dets p ct s s' out) in *.
  (* the lists of the third phase *)
  assert (NU1 : NoDup (map h_obj H1 ++ un1)) by (eapply Permutation_NoDup; eauto).
  assert (IU1 : incl un1 (inits c s)) by (intros x Hx; eapply Permutation_in; [symmetry; exact A3|]; apply in_app_iff; auto).
  assert (IO1 : incl (map h_obj H1) (inits c s)) by (intros x Hx; eapply Permutation_in; [symmetry; exact A3|]; apply in_app_iff; auto).
  assert (IO2 : incl (map h_obj H2) (uninits c s)) by (intros x Hx; eapply Permutation_in; [symmetry; exact D3|]; apply in_app_iff; auto).
  assert (Cand : forall j, In j (map h_obj H2) <-> candidate thing who c fr j).
  { intros j. unfold candidate, detected. cbn [f_pre f_dets fr]. rewrite matchable_alive. split.
    - intros Hj. pose proof (IO2 _ Hj) as Hu. unfold uninits in Hu. apply filter_In in Hu as [Hu1 Hu2]. split; [exact Hu1|]. split; [exact Hu2|].
      apply in_map_iff in Hj as ([[j' r] d] & Ej & Hin). cbn in Ej. subst j'. exists r.
      apply (proj1 (Hit j r) (ex_intro _ d (proj2 (in_app_iff _ _ _) (or_intror Hin)))).
    - intros (Hu1 & Hu2 & r & Hr1 & Hr2). destruct (proj2 (Hit j r)) as [d Hd]; [auto|]. apply in_app_iff in Hd as [Hd|Hd]; [|apply in_map_iff; exists (j, r, d); auto].
      exfalso. assert (In j (inits c s)) by (apply IO1, in_map_iff; exists (j, r, d); auto). eapply inits_not_uninits; [eassumption|]. apply filter_In. auto. }
  assert (Sea : forall i, In i (un1 ++ dead c s) <-> searching thing who c fr i).
  { intros i. unfold searching, detected. cbn [f_pre f_dets fr]. rewrite in_app_iff, <- retired_dead, matchable_alive. split.
    - intros [Hi|Hi]; [right|auto]. pose proof (IU1 _ Hi) as Hi'. unfold inits in Hi'. apply filter_In in Hi' as [X Y]. apply negb_true_iff in Y. split; [exact X|]. split; [exact Y|].
      intros (r & Hr1 & Hr2). destruct (proj2 (B1 i r)) as [d Hd]; [auto|]. eapply (NoDup_app_disj _ _ i NU1); [|exact Hi]. apply in_map_iff. exists (i, r, d). auto.
    - intros [Hi|(X & Y & Z)]; [auto|left]. assert (Hi : In i (inits c s)) by (apply filter_In; rewrite Y; auto). apply (Permutation_in _ A3) in Hi.
      apply in_app_iff in Hi as [Hi|Hi]; [|exact Hi]. exfalso. apply Z. apply in_map_iff in Hi as ([[i' r] d] & Ei & Hin). cbn in Ei. subst i'. exists r.
      destruct (proj1 (B1 i r) (ex_intro _ d Hin)) as (_ & K1 & K2). auto. }
  assert (Nob : NoDup (un1 ++ dead c s)).
  { apply NoDup_app_intro; auto; [eapply NoDup_app_r; eauto|]. intros x Hx Hd. eapply alive_not_dead; [|exact Hd]. apply inits_alive. auto. }
  assert (Dis3 : forall i, In i (un1 ++ dead c s) -> ~ In i (map h_obj H2)).
  { intros i Hi Hj. apply IO2 in Hj. apply in_app_iff in Hi as [Hi|Hi].
    - eapply inits_not_uninits; [apply IU1; exact Hi|exact Hj].
    - eapply alive_not_dead; [apply uninits_alive; exact Hj|exact Hi]. }
  assert (Htr2 : s_tracked s2 = kept c s) by (rewrite D5, A5; apply ST).
  destruct (phase_merges_facts _ _ _ _ _ _ _ Nob D1 Dis3 ltac:(rewrite Htr2; auto) PM)
    as (E1 & E2 & E3 & E4 & E5 & E6 & E7 & E8 & E9 & E10 & E11 & E12 & E13 & E14).
  assert (Hic3 : s_icount s3 = s_icount s) by (rewrite E8, D6, A6; apply ST).
  assert (Hval : forall i, In i (kept c s) -> valid s i) by (intros i Hi; apply kept_tracked in Hi; apply (valid_tracked _ _ T Hi)).
  assert (Hold : forall i, valid s i -> s_store s' i = s_store s3 i) by (intros i [_ Hi]; apply (cf_old _ _ _ _ _ _ CF); lia).
  assert (Hs3 : forall j, In j (map h_obj H2) -> s_store s2 j = s_store s' j).
  { intros j Hj. rewrite Hold by (apply Hval, alive_kept, uninits_alive, IO2; auto). symmetry. apply E13. intros X. apply (Dis3 j X Hj). }
  assert (Hl2 : forall i, In i (un1 ++ dead c s) -> exists m, s_store s2 i = set_min_distance m (s_store s0 i)).
  { intros i Hi. rewrite D9; [|intros X; apply in_app_iff in Hi as [Hi|Hi];
      [eapply inits_not_uninits; [apply IU1; exact Hi|exact X]|eapply alive_not_dead; [apply uninits_alive; exact X|exact Hi]]].
    apply A8. intros X. apply in_app_iff in Hi as [Hi|Hi]; [exact (NoDup_app_disj _ _ i NU1 X Hi)|].
    eapply alive_not_dead; [apply inits_alive, IO1; exact X|exact Hi]. }
  assert (Hh02 : heap_age (s_heap s0) (s_heap s2)) by (eapply heap_age_trans; eauto).
  assert (Hh2' : heap_age (s_heap s2) (s_heap s')) by (eapply heap_age_trans; [exact E5|apply CF]).
  (* who is merged *)
  assert (G1 : forall i j dist, In (i, j, dist) G -> retired c s i /\ candidate thing who c fr j /\ who (last_det s j) = who (last_det s i)).
  { intros i j dist Hin. destruct (tc_reid_distance c) as [g|] eqn:Eg.
    2:{ rewrite (su_noreid _ _ _ _ _ _ _ _ _ _ Su Eg) in Hin. destruct Hin. }
    destruct (clear_merges c g (un1 ++ dead c s) (map h_obj H2) p s2 s3 G (fun i => who (last_det s i)) Eg PM) as [M1 _].
    { intros j1 j2 X Y. apply One'; apply uninits_alive, IO2; auto. }
    { intros x y Hx Hy. rewrite (rnear_same c g s0 s2 s' y x); auto.
      - apply (Rec g eq_refl); [apply Sea, Hx|apply Cand, Hy].
      - intros r. apply upto_sym, same_upto, Hh2'. }
    destruct (M1 _ _ _ Hin) as (K1 & K2 & K3). apply Cand in K2 as K2'. split; [|split; [exact K2'|exact K3]].
    apply Sea in K1 as [K1|(X & Y & Z)]; [exact K1|]. cbn [f_pre fr] in *. exfalso. apply Z. unfold detected. cbn [f_pre f_dets fr].
    destruct K2' as (_ & _ & r & R1 & R2). exists r. cbn [f_pre f_dets fr] in *. split; [exact R1|]. rewrite R2, K3. reflexivity. }
  assert (G2 : tc_reid_distance c <> None -> forall i j, retired c s i -> candidate thing who c fr j -> who (last_det s j) = who (last_det s i) ->
     exists i' dist, In (i', j, dist) G).
  { intros Hg i j Ri Cj Ew. destruct (tc_reid_distance c) as [g|] eqn:Eg; [|contradiction].
    destruct (clear_merges c g (un1 ++ dead c s) (map h_obj H2) p s2 s3 G (fun i => who (last_det s i)) Eg PM) as [_ M2].
    { intros j1 j2 X Y. apply One'; apply uninits_alive, IO2; auto. }
    { intros x y Hx Hy. rewrite (rnear_same c g s0 s2 s' y x); auto.
      - apply (Rec g eq_refl); [apply Sea, Hx|apply Cand, Hy].
      - intros r. apply upto_sym, same_upto, Hh2'. }
    apply (M2 i j); auto; [apply Sea; left; exact Ri|apply Cand, Cj]. }
  assert (LH : forall i r dist, In (i, r, dist) (H1 ++ H2) -> last_det s' i = r).
  { intros i r dist Hin. destruct (su_hit _ _ _ _ _ _ _ _ _ _ Su i r dist Hin) as (om & _ & X). eapply hit_last; eauto. }
  assert (LG : forall i j dist, In (i, j, dist) G -> last_det s' i = last_det s' j).
  { intros i j dist Hin. destruct (su_merge _ _ _ _ _ _ _ _ _ _ Su i j dist Hin) as (om & _ & X). apply X. }
  assert (LM : forall i, valid s i -> ~ (exists r dist, In (i, r, dist) (H1 ++ H2)) -> ~ (exists j dist, In (i, j, dist) G) -> last_det s' i = last_det s i).
  { intros i Vi Hx Hy. destruct (in_dec Nat.eq_dec i (kept c s)) as [Hk|Hk].
    - destruct (su_missed _ _ _ _ _ _ _ _ _ _ Su i Hk) as [m X].
      + rewrite app_assoc, <- map_app, in_app_iff. intros [X|X]; apply in_map_iff in X as ([[i' r] d] & X & Hin); cbn in X; subst i'; eauto.
      + unfold last_det. rewrite X. destruct ct; reflexivity.
    - unfold last_det. rewrite (su_gone _ _ _ _ _ _ _ _ _ _ Su i Vi Hk). reflexivity. }
  assert (Hdec : forall (L : list (nat * nat * dval N)) i, (exists (r : nat) (dist : dval N), In (i, r, dist) L) \/ ~ (exists r dist, In (i, r, dist) L)).
  { intros L i. destruct (in_dec Nat.eq_dec i (map h_obj L)) as [X|X].
    - left. apply in_map_iff in X as ([[i' r] d] & X & Hin). cbn in X. subst i'. eauto.
    - right. intros (r & d & Hin). apply X. apply in_map_iff. exists (i, r, d). auto. }
  assert (KeepA : forall i, In i (alive c s) -> who (last_det s' i) = who (last_det s i)).
  { intros i Hi. destruct (Hdec (H1 ++ H2) i) as [(r & d & Hin)|Hx].
    - rewrite (LH _ _ _ Hin). apply (Hit i r). eauto.
    - rewrite LM; auto; [apply Hval, alive_kept, Hi|]. intros (j & d & Hin). destruct (G1 _ _ _ Hin) as [R _]. apply retired_dead in R. eapply alive_not_dead; eauto. }
  assert (CandA : forall j, candidate thing who c fr j -> In j (alive c s)) by (intros j (X & _); apply matchable_alive, X).
  assert (Keep : forall i, valid s i -> who (last_det s' i) = who (last_det s i)).
  { intros i Vi. destruct (Hdec (H1 ++ H2) i) as [(r & d & Hin)|Hx].
    - rewrite (LH _ _ _ Hin). apply (Hit i r). eauto.
    - destruct (Hdec G i) as [(j & d & Hin)|Hy]; [|rewrite LM; auto]. destruct (G1 _ _ _ Hin) as (_ & K1 & K2). rewrite (LG _ _ _ Hin), KeepA by (apply CandA, K1). exact K2. }
  assert (LN : forall k, k < length news -> last_det s' (S (s_icount s) + k) = nth k news 0) by (intros k Hk; apply (nr_last _ _ _ _ _ _ _ (su_new _ _ _ _ _ _ _ _ _ _ Su k Hk))).
  assert (Ic : s_icount s' = s_icount s + length news) by apply Su.
  assert (NewI : forall i, s_icount s < i <= s_icount s' -> exists k, k < length news /\ i = S (s_icount s) + k).
  { intros i Hi. exists (i - S (s_icount s)). lia. }
  assert (OldM : forall i, matchable c s' i -> valid s i -> In i (alive c s) \/ exists j dist, In (i, j, dist) G).
  { intros i Hm Vi. destruct Hm as (Tr & Hh & _). apply (tracked_old _ _ _ _ _ _ _ _ _ _ i T Su Vi) in Tr as [Hk _].
    destruct (Hdec (H1 ++ H2) i) as [(r & d & Hin)|Hx]; [left; apply (Hit i r); eauto|].
    destruct (Hdec G i) as [Hy|Hy]; [auto|left].
    destruct (su_missed _ _ _ _ _ _ _ _ _ _ Su i Hk) as [m X].
    { rewrite app_assoc, <- map_app, in_app_iff. intros [X|X]; apply in_map_iff in X as ([[i' r] d] & X & Hin); cbn in X; subst i'; eauto. }
    unfold alive. apply filter_In. split; [exact Hk|]. unfold hit_counter in Hh. rewrite X in Hh. unfold hit_counter_is_positive. apply Z.leb_le. destruct ct; cbn in Hh; lia. }
  assert (Gdet : forall i j dist, In (i, j, dist) G -> In j (map h_det G)) by (intros i j dist Hin; apply in_map_iff; exists (i, j, dist); auto).
  assert (Gobj : forall i j dist, In (i, j, dist) G -> In i (map h_obj G)) by (intros i j dist Hin; apply in_map_iff; exists (i, j, dist); auto).
  constructor; cbn [f_dets f_pre f_post fr].
  - exact Keep.
  - intros i r Hm Hr' Ew. apply matchable_alive in Hm. destruct (proj2 (Hit i r)) as [d Hd]; auto. eapply LH; eauto.
  - intros i Hm Hc. apply matchable_alive in Hm. apply (tracked_old _ _ _ _ _ _ _ _ _ _ i T Su); [apply Hval, alive_kept, Hm|]. split; [apply alive_kept, Hm|].
    intros X. apply in_map_iff in X as ([[o j] d] & X & Hin). cbn in X. subst j. destruct (G1 _ _ _ Hin) as (K1 & K2 & K3). destruct Hc as [Hc|[Hc|Hc]].
    + rewrite (su_noreid _ _ _ _ _ _ _ _ _ _ Su Hc) in Hin. destruct Hin.
    + exact (Hc K2).
    + apply (Hc o K1). congruence.
  - intros i r Hg Hc Hr' Ew (o0 & Ro0 & Eo0). destruct (G2 Hg o0 i Ro0 Hc) as (o & d & Hin); [cbn [f_pre fr] in *; congruence|]. destruct (G1 _ _ _ Hin) as (K1 & K2 & K3).
    assert (Ho' : In o (kept c s)) by (apply dead_kept, retired_dead, K1).
    split.
    + intros X. apply (tracked_old _ _ _ _ _ _ _ _ _ _ i T Su) in X; [|apply Hval, alive_kept, CandA, Hc]. apply X. eapply Gdet; eauto.
    + exists o. split; [exact K1|]. split; [congruence|].
      destruct (su_merge _ _ _ _ _ _ _ _ _ _ Su o i d Hin) as (om & [m Hom] & MR).
      split; [|split; [|split; [|split; [|split; [|split; [|split]]]]]].
      * apply (tracked_old _ _ _ _ _ _ _ _ _ _ o T Su); [auto|]. split; [exact Ho'|]. intros X. apply (Dis3 o); [apply Sea; left; exact K1|apply E4, X].
      * rewrite (LG _ _ _ Hin). destruct (proj2 (Hit i r)) as [dd Hd]; [split; [apply CandA, Hc|]; auto|]. eapply LH; eauto.
      * unfold hit_counter. rewrite (mr_hit _ _ _ MR), Hom. destruct ct; reflexivity.
      * apply MR.
      * rewrite (mr_init _ _ _ MR), Hom. destruct ct; reflexivity.
      * rewrite (mr_id _ _ _ MR), Hom. destruct ct; reflexivity.
      * rewrite (mr_gid _ _ _ MR), Hom. destruct ct; reflexivity.
      * intros o' Ro' Eo' No'. apply LM; [apply Hval, dead_kept, retired_dead, Ro'| |].
        -- intros (r' & d' & Hin'). assert (X : In o' (alive c s)) by (apply (Hit o' r'); eauto). apply retired_dead in Ro'. eapply alive_not_dead; eauto.
        -- intros (j & d' & Hin'). destruct (G1 _ _ _ Hin') as (_ & J1 & J2). assert (Ej : j = i) by (apply One'; [apply CandA, J1|apply CandA, Hc|congruence]). subst j.
           apply No'. assert (Eq : (o', i, d') = (o, i, d)); [|congruence]. apply (NoDup_map_inj h_det G); auto.
  - intros i Vi Hx Hy. apply LM; [exact Vi| |].
    + intros (r & d & Hin). apply Hx. destruct (proj1 (Hit i r) (ex_intro _ d Hin)) as (X & Y & Z). split; [apply matchable_alive, X|]. exists r. auto.
    + intros (j & d & Hin). apply Hy. destruct (G1 _ _ _ Hin) as (K1 & K2 & K3). split; [|split; [exact K1|exists j; auto]].
      intros X. rewrite (su_noreid _ _ _ _ _ _ _ _ _ _ Su X) in Hin. destruct Hin.
  - intros r Hr' Hx. assert (X : In r news) by (apply News; split; [exact Hr'|intros i Hi; apply Hx, matchable_alive, Hi]).
    apply (In_nth _ _ 0) in X as (k & Hk & Ek). exists (S (s_icount s) + k). split; [lia|]. split; [|rewrite LN; auto].
    unfold tracked. rewrite (su_tracked _ _ _ _ _ _ _ _ _ _ Su). apply in_app_iff. right. apply in_seq. lia.
  - intros i Hi. destruct (NewI i Hi) as (k & Hk & ->). rewrite LN by auto. assert (X : In (nth k news 0) news) by (apply nth_In, Hk). apply News in X as [X Y].
    split; [exact X|]. intros j Hj. apply Y, matchable_alive, Hj.
  - intros i j Mi Mj Ew.
    assert (Cs : forall x, matchable c s' x -> valid s x \/ s_icount s < x <= s_icount s').
    { intros x (Tr & _). unfold tracked in Tr. rewrite (su_tracked _ _ _ _ _ _ _ _ _ _ Su) in Tr. apply in_app_iff in Tr as [Tr|Tr].
      - left. unfold remove_all in Tr. apply filter_In in Tr as [Hk _]. auto.
      - right. apply in_seq in Tr. lia. }
    (* the live object of the thing of a matchable object *)
    assert (Rep : forall x, matchable c s' x -> valid s x -> (In x (alive c s) /\ ~ In x (map h_det G)) \/
       exists y d, In (x, y, d) G /\ In y (alive c s) /\ who (last_det s y) = who (last_det s' x)).
    { intros x Mx Vx. destruct (OldM x Mx Vx) as [X|(y & d & Hin)].
      - left. split; [exact X|]. destruct Mx as (Tr & _). apply (tracked_old _ _ _ _ _ _ _ _ _ _ x T Su Vx) in Tr. tauto.
      - right. exists y, d. destruct (G1 _ _ _ Hin) as (_ & K2 & _). split; [exact Hin|]. split; [apply CandA, K2|]. rewrite (LG _ _ _ Hin), KeepA by (apply CandA, K2). reflexivity. }
    assert (Mix : forall x y, matchable c s' x -> valid s x -> s_icount s < y <= s_icount s' -> who (last_det s' x) = who (last_det s' y) -> False).
    { intros x y Mx Vx Hy Exy. destruct (NewI y Hy) as (k & Hk & ->). rewrite LN in Exy by auto. assert (X : In (nth k news 0) news) by (apply nth_In, Hk). apply News in X as [_ Y].
      destruct (Rep x Mx Vx) as [[X _]|(z & d & _ & X & Ez)]; [apply (Y x X); rewrite <- Keep by auto|apply (Y z X)]; congruence. }
    destruct (Cs i Mi) as [Vi|Vi], (Cs j Mj) as [Vj|Vj].
    + destruct (Rep i Mi Vi) as [[X X']|(y & d & Hy & X & Ey)], (Rep j Mj Vj) as [[Y Y']|(z & d' & Hz & Y & Ez)].
      * apply One'; auto. rewrite <- (Keep i Vi), <- (Keep j Vj). exact Ew.
      * exfalso. apply X'. assert (i = z) by (apply One'; auto; rewrite <- (Keep i Vi); congruence). subst z. eapply Gdet; eauto.
      * exfalso. apply Y'. assert (j = y) by (apply One'; auto; rewrite <- (Keep j Vj); congruence). subst y. eapply Gdet; eauto.
      * assert (y = z) by (apply One'; auto; congruence). subst z. assert (Eq : (i, y, d) = (j, y, d')); [|congruence]. apply (NoDup_map_inj h_det G); auto.
    + exfalso. exact (Mix i j Mi Vi Vj Ew).
    + exfalso. exact (Mix j i Mj Vj Vi (eq_sym Ew)).
    + destruct (NewI i Vi) as (k & Hk & ->). destruct (NewI j Vj) as (l & Hl & ->). rewrite !LN in Ew by auto. f_equal.
      assert (Nn : NoDup (map who news)).
      { pose proof (su_perm _ _ _ _ _ _ _ _ _ _ Su) as Pm. assert (X : NoDup (map who (map h_det H1 ++ map h_det H2 ++ news))) by (eapply Permutation_NoDup; [apply Permutation_map, Pm|exact Un1]).
        rewrite !map_app in X. apply NoDup_app_r in X. eapply NoDup_app_r; eauto. }
      apply (proj1 (NoDup_nth (map who news) (who 0)) Nn); rewrite ?map_length; auto. rewrite !map_nth. exact Ew.
Qed.

Theorem video_return c f (s : st) fs : rnd_ok (tc_rnd c) -> tracker_state c s -> tc_distance c = ScalarDistance f -> age_blind f ->
  (forall g, tc_reid_distance c = Some g -> reid_blind g) -> video c s fs -> one_each thing who c s ->
  (forall fr, In fr fs -> unambiguous thing who c f fr) -> (forall fr, In fr fs -> recognized thing who c fr) ->
  forall fr, In fr fs -> right_return thing who c fr.
Proof.
  intros Hr Ht Ed Ab Rb V. revert Ht. induction V as [s|s heap g dets p ct s' out fs Hg E V IH]; intros Ht One Un Rec fr Hin; [destruct Hin|].
  assert (R : right_return thing who c (MkFrame dets p ct (meanwhile s heap g) s' out)).
  { apply (call_return c f); auto; [apply ts_meanwhile; auto|apply Un; left; reflexivity|apply Rec; left; reflexivity]. }
  destruct Hin as [<-|Hin]; [exact R|]. apply IH; auto.
  - change s' with (fst (s', @Ret (list nat) out)). rewrite <- E. apply ts_update, ts_meanwhile; auto.
  - apply (rr_one_each _ _ _ _ R).
  - intros. apply Un. right. auto.
  - intros. apply Rec. right. auto.
Qed.
Theorem video_same_thing c f (s : st) fs i : rnd_ok (tc_rnd c) -> tracker_state c s -> tc_distance c = ScalarDistance f -> age_blind f ->
  (forall g, tc_reid_distance c = Some g -> reid_blind g) -> video c s fs -> one_each thing who c s ->
  (forall fr, In fr fs -> unambiguous thing who c f fr) -> (forall fr, In fr fs -> recognized thing who c fr) -> known s i ->
  forall fr, In fr fs -> who (last_det (f_post fr) i) = who (last_det s i).
Proof.
  intros Hr Ht Ed Ab Rb V One Un Rec Hk fr Hin. pose proof (video_return c f s fs Hr Ht Ed Ab Rb V One Un Rec) as R. clear Un One Ed Ab Rb Rec f.
  revert Ht Hk Hin. induction V as [s|s heap g dets p ct s' out fs Hg E V IH]; intros Ht Hk Hin; [destruct Hin|].
  pose proof (icount_video laws c s _ Hr Ht (video_cons c s heap g dets p ct s' out fs Hg E V) _ (or_introl eq_refl)) as [_ L]. cbn in L.
  pose proof (rr_keeps _ _ _ _ (R _ (or_introl eq_refl)) i Hk) as K. cbn in K. destruct Hin as [<-|Hin]; [exact K|].
  rewrite IH; auto; [intros; apply R; right; auto| |unfold known in *; lia].
  change s' with (fst (s', @Ret (list nat) out)). rewrite <- E. apply ts_update, ts_meanwhile; auto.
Qed.

(* ---- two calls: a thing comes back ---- *)
Lemma hit_step ct (o : tobj FO) : o_hit (obj_update_ct ct (tracker_step o)) = (o_hit o - 1)%Z.
Proof. destruct ct; reflexivity. Qed.
Lemma retired_before c dets p ct (s s' : st) out o : rnd_ok (tc_rnd c) -> tracker_state c s -> update c (Some dets) p ct s = (s', Ret out) ->
  retired c s' o -> retired c s o \/ matchable c s o \/ (s_icount s < o <= s_icount s' /\ hit_counter s' o = p).
Proof.
  intros Hr Ht E (Tr & _). apply tracker_state_good in Ht as [T _]. destruct (update_summary laws _ _ _ _ _ _ _ Hr T E) as (H1 & H2 & G & news & Su & _). cbn [dets_of] in Su.
  unfold tracked in Tr. rewrite (su_tracked _ _ _ _ _ _ _ _ _ _ Su) in Tr. apply in_app_iff in Tr as [Tr|Tr].
  - apply in_remove_all in Tr as [Hk _]. rewrite <- retired_dead, matchable_alive. unfold dead, alive. rewrite !filter_In. destruct (hit_counter_is_positive (s_store s o)); auto.
  - right. right. apply in_seq in Tr. rewrite (su_icount _ _ _ _ _ _ _ _ _ _ Su). split; [lia|]. replace o with (S (s_icount s) + (o - S (s_icount s))) by lia.
    apply (nr_hit _ _ _ _ _ _ _ (su_new _ _ _ _ _ _ _ _ _ _ Su (o - S (s_icount s)) ltac:(lia))).
Qed.
Lemma newborn_facts c dets p ct (s s' : st) out i : rnd_ok (tc_rnd c) -> tracker_state c s -> update c (Some dets) p ct s = (s', Ret out) ->
  s_icount s < i <= s_icount s' -> hit_counter s' i = p /\ o_reid (s_store s' i) = None /\ o_initializing (s_store s' i) = (p <=? tc_delay c)%Z.
Proof.
  intros Hr Ht E Hi. apply tracker_state_good in Ht as [T _]. destruct (update_summary laws _ _ _ _ _ _ _ Hr T E) as (H1 & H2 & G & news & Su & _). cbn [dets_of] in Su.
  rewrite (su_icount _ _ _ _ _ _ _ _ _ _ Su) in Hi. pose proof (su_new _ _ _ _ _ _ _ _ _ _ Su (i - S (s_icount s)) ltac:(lia)) as X.
  replace (S (s_icount s) + (i - S (s_icount s))) with i in X by lia. split; [apply X|]. split; apply X.
Qed.
Lemma retired_identity c dets p ct (s s' : st) out i : rnd_ok (tc_rnd c) -> tracker_state c s -> update c (Some dets) p ct s = (s', Ret out) -> retired c s i ->
  o_id (s_store s' i) = o_id (s_store s i) /\ o_gid (s_store s' i) = o_gid (s_store s i) /\ o_conf (s_store s' i) = o_conf (s_store s i) /\
  o_initializing (s_store s' i) = o_initializing (s_store s i).
Proof.
  intros Hr Ht E Re. apply tracker_state_good in Ht as [T _]. destruct (update_summary laws _ _ _ _ _ _ _ Hr T E) as (H1 & H2 & G & news & Su & _). cbn [dets_of] in Su.
  apply retired_dead in Re. pose proof (dead_kept _ _ _ Re) as Hk.
  destruct (in_dec Nat.eq_dec i (map h_obj G)) as [X|X].
  - apply in_map_iff in X as ([[i' j] d] & X & Hin). cbn in X. subst i'. destruct (su_merge _ _ _ _ _ _ _ _ _ _ Su i j d Hin) as (om & [m Hom] & MR).
    rewrite (mr_id _ _ _ MR), (mr_gid _ _ _ MR), (mr_conf _ _ _ MR), (mr_init _ _ _ MR), Hom. destruct ct; auto.
  - destruct (su_missed _ _ _ _ _ _ _ _ _ _ Su i Hk) as [m Y]; [|rewrite Y; destruct ct; auto].
    rewrite !in_app_iff. intros [Y|[Y|Y]]; [ | | tauto].
    + eapply alive_not_dead; [apply inits_alive, (su_obj1 _ _ _ _ _ _ _ _ _ _ Su), Y|exact Re].
    + eapply alive_not_dead; [apply uninits_alive, (su_obj2 _ _ _ _ _ _ _ _ _ _ Su), Y|exact Re].
Qed.

Theorem comes_back c f (s : st) f1 f2 i r1 r2 : rnd_ok (tc_rnd c) -> tracker_state c s -> tc_distance c = ScalarDistance f -> age_blind f ->
  tc_reid_distance c <> None -> (forall g, tc_reid_distance c = Some g -> reid_blind g) -> video c s [f1; f2] -> one_each thing who c s ->
  (forall fr, In fr [f1; f2] -> unambiguous thing who c f fr) -> (forall fr, In fr [f1; f2] -> recognized thing who c fr) ->
  (0 <= f_period f1 <= tc_delay c)%Z -> (0 <= oc_initial_period (o_conf (s_store s i)))%Z ->
  o_initializing (s_store s i) = false -> retired c s i -> retired c (f_post f1) i ->
  (forall o, retired c s o -> who (last_det s o) = who (last_det s i) -> o = i) ->
  (forall o, matchable c s o -> who (last_det s o) <> who (last_det s i)) ->
  In r1 (f_dets f1) -> who r1 = who (last_det s i) -> In r2 (f_dets f2) -> who r2 = who (last_det s i) ->
  In i (f_out f2) /\ last_det (f_post f2) i = r2 /\ o_id (s_store (f_post f2) i) = o_id (s_store s i) /\ o_gid (s_store (f_post f2) i) = o_gid (s_store s i) /\
  forall j, s_icount s < j <= s_icount (f_post f1) -> last_det (f_post f1) j = r1 -> ~ tracked (f_post f2) j.
Proof.
  intros Hr Ht Ed Ab Nre Rb V One Un Rec Hp Hip Hin Re1 Re2 Only No I1 W1 I2 W2.
  pose proof (video_return c f s _ Hr Ht Ed Ab Rb V One Un Rec) as R. clear Un Rec.
  inversion V as [|s_ h1 g1 d1 p1 ct1 s1 out1 fs_ Hg1 E1 V2]; subst. inversion V2 as [|s_ h2 g2 d2 p2 ct2 s2 out2 fs_ Hg2 E2 V3]; subst.
  cbn [f_dets f_post f_out f_period] in *. clear V V2 V3.
  assert (T1 : tracker_state c (meanwhile s h1 g1)) by (apply ts_meanwhile; auto).
  assert (T2 : tracker_state c (meanwhile s1 h2 g2)).
  { apply ts_meanwhile; auto. change s1 with (fst (s1, @Ret (list nat) out1)). rewrite <- E1. apply ts_update, T1. }
  pose proof (R _ (or_introl eq_refl)) as R1. pose proof (R _ (or_intror (or_introl eq_refl))) as R2. clear R.
  assert (Vi : known s i).
  { destruct Re1 as [X _]. apply tracker_state_good in T1 as [T _]. exact (valid_tracked _ _ T X). }
  pose proof (rr_keeps _ _ _ _ R1 i Vi) as K1. cbn [f_pre f_post] in K1. change (last_det (meanwhile s h1 g1) i) with (last_det s i) in K1.
  destruct (rr_new _ _ _ _ R1 r1 I1) as (j & Hj & Tj & Lj). { cbn [f_pre]. intros o Mo. rewrite W1. exact (No o Mo). } cbn [f_pre f_post] in Hj, Tj, Lj.
  change (s_icount (meanwhile s h1 g1)) with (s_icount s) in Hj.
  destruct (newborn_facts c d1 p1 ct1 _ _ _ j Hr T1 E1 Hj) as (N1 & N2 & N3).
  assert (Cj : candidate thing who c (MkFrame d2 p2 ct2 (meanwhile s1 h2 g2) s2 out2) j).
  { split; [|split].
    - cbn [f_pre]. split; [exact Tj|]. split; [change (0 <= hit_counter s1 j)%Z; lia|]. intros _. change (s_store (meanwhile s1 h2 g2) j) with (s_store s1 j). rewrite N2. exact I.
    - cbn [f_pre]. change (o_initializing (s_store s1 j) = true). rewrite N3. apply Z.leb_le. lia.
    - exists r2. cbn [f_dets f_pre]. change (last_det (meanwhile s1 h2 g2) j) with (last_det s1 j). rewrite Lj. split; [exact I2|congruence]. }
  assert (Wj : who r2 = who (last_det (meanwhile s1 h2 g2) j)) by (change (last_det (meanwhile s1 h2 g2) j) with (last_det s1 j); rewrite Lj; congruence).
  assert (Rm : forall o, retired c (meanwhile s1 h2 g2) o <-> retired c s1 o) by (intros; reflexivity).
  destruct (rr_back _ _ _ _ R2 j r2 Nre Cj I2 Wj) as (Gone & o & Ro & Wo & To & Lo & Ho & _ & Io & Do & Go & _).
  { exists i. split; [exact Re2|]. cbn [f_pre]. change (last_det (meanwhile s1 h2 g2) i) with (last_det s1 i). congruence. }
  cbn [f_pre f_post] in *. change (last_det (meanwhile s1 h2 g2) o) with (last_det s1 o) in Wo. change (s_store (meanwhile s1 h2 g2) o) with (s_store s1 o) in *.
  assert (o = i).
  { assert (Ro1 : retired c s1 o) by exact Ro. destruct (retired_before c d1 p1 ct1 _ _ _ o Hr T1 E1 Ro1) as [X|[X|[X Y]]].
    - apply Only; [exact X|]. assert (Vo : known s o) by (destruct X as [X _]; pose proof T1 as T1'; apply tracker_state_good in T1' as [T _]; exact (valid_tracked _ _ T X)).
      pose proof (rr_keeps _ _ _ _ R1 o Vo) as K. cbn [f_pre f_post] in K. change (last_det (meanwhile s h1 g1) o) with (last_det s o) in K. congruence.
    - exfalso. apply (No o X). assert (Vo : known s o) by (destruct X as [X _]; pose proof T1 as T1'; apply tracker_state_good in T1' as [T _]; exact (valid_tracked _ _ T X)).
      pose proof (rr_keeps _ _ _ _ R1 o Vo) as K. cbn [f_pre f_post] in K. change (last_det (meanwhile s h1 g1) o) with (last_det s o) in K. congruence.
    - exfalso. destruct Ro1 as (_ & Z & _). lia. }
  subst o. destruct (retired_identity c d1 p1 ct1 _ _ _ i Hr T1 E1 Re1) as (J1 & J2 & J3 & J4). cbn in J1, J2, J3, J4.
  split; [|split; [exact Lo|split; [congruence|split; [congruence|]]]].
  - assert (Ho2 : out2 = get_active_objects s2).
    { pose proof T2 as T2'. apply tracker_state_good in T2' as [T _]. destruct (update_effect laws _ _ _ _ _ _ _ Hr (ti_nodup _ T) E2) as (? & ? & ? & ? & ? & ? & ? & ? & ? & ? & _ & X & _). exact X. }
    rewrite Ho2. unfold get_active_objects. apply filter_In. split; [exact To|]. unfold is_active, hit_counter_is_positive. unfold hit_counter in Ho. rewrite Io, J4, Hin, Ho, J3. cbn [negb andb].
    apply Z.leb_le. lia.
  - intros j' Hj' Lj'. destruct (newborn_facts c d1 p1 ct1 _ _ _ j' Hr T1 E1 Hj') as (N1' & N2' & N3').
    destruct (in_dec Nat.eq_dec j' (s_tracked s1)) as [Tj'|Tj'].
    + assert (j' = j); [|subst; exact Gone]. apply (rr_one_each _ _ _ _ R1); cbn [f_post].
      * split; [exact Tj'|]. split; [lia|]. intros _. rewrite N2'. exact I.
      * split; [exact Tj|]. split; [lia|]. intros _. rewrite N2. exact I.
      * congruence.
    + intros X. pose proof T2 as T2'. apply tracker_state_good in T2' as [T _]. destruct (update_summary laws _ _ _ _ _ _ _ Hr T E2) as (H1 & H2 & G & news & Su & _).
      unfold tracked in X. rewrite (su_tracked _ _ _ _ _ _ _ _ _ _ Su) in X. apply in_app_iff in X as [X|X].
      * apply in_remove_all in X as [X _]. apply kept_tracked in X. exact (Tj' X).
      * apply in_seq in X. cbn in X. lia.
Qed.
End P.

(* ---- without initialization nobody is re-identified ---- *)
Section NoDelay.
Context {N : Num} (laws : NumLaws N) {FO : filter_ops N}.
Notation st := (st FO).
Lemma call_no_delay c dets p ct (s s' : st) out : rnd_ok (tc_rnd c) -> tracker_state c s -> (tc_delay c < p)%Z ->
  (forall i, tracked s i -> o_initializing (s_store s i) = false) -> update c (Some dets) p ct s = (s', Ret out) ->
  (forall i, tracked s' i -> o_initializing (s_store s' i) = false) /\
  (forall i, known s i -> ~ matchable c s i -> ~ matchable c s' i /\ last_det s' i = last_det s i /\ ~ In i out).
Proof.
  intros Hr Ht Hp Hi E. apply tracker_state_good in Ht as [T _]. destruct (update_summary laws _ _ _ _ _ _ _ Hr T E) as (H1 & H2 & G & news & Su & Ho). cbn [dets_of] in Su.
  assert (U : uninits c s = []).
  { unfold uninits. destruct (filter _ _) as [|x l] eqn:X; [reflexivity|]. assert (Y : In x (x :: l)) by (left; reflexivity). rewrite <- X in Y. apply filter_In in Y as [Y Z].
    apply alive_kept, kept_tracked in Y. rewrite (Hi x Y) in Z. discriminate. }
  assert (EH : H2 = []). { pose proof (su_obj2 _ _ _ _ _ _ _ _ _ _ Su) as X. rewrite U in X. destruct H2 as [|h l]; [reflexivity|]. destruct (X (h_obj h) (or_introl eq_refl)). } subst H2.
  assert (EG : G = []). { pose proof (su_cand _ _ _ _ _ _ _ _ _ _ Su) as X. destruct G as [|h l]; [reflexivity|]. destruct (X (h_det h) (or_introl eq_refl)). } subst G.
  split.
  - intros i Tr. unfold tracked in Tr. rewrite (su_tracked _ _ _ _ _ _ _ _ _ _ Su) in Tr. apply in_app_iff in Tr as [Tr|Tr].
    + apply in_remove_all in Tr as [Hk _]. pose proof (kept_tracked _ _ _ Hk) as Tr.
      destruct (in_dec Nat.eq_dec i (map h_obj H1)) as [X|X].
      * apply in_map_iff in X as ([[i' r] d] & X & Hin). cbn in X. subst i'. destruct (su_hit _ _ _ _ _ _ _ _ _ _ Su i r d) as (om & [m Hom] & (o1 & HR & Eo)); [rewrite app_nil_r; exact Hin|].
        rewrite Eo. cbn. rewrite (hr_init _ _ _ _ _ HR), Hom. assert (Z : o_initializing (obj_update_ct ct (tracker_step (s_store s i))) = o_initializing (s_store s i)) by (destruct ct; reflexivity).
        cbn. rewrite Z, (Hi i Tr). reflexivity.
      * destruct (su_missed _ _ _ _ _ _ _ _ _ _ Su i Hk) as [m Y]; [cbn; rewrite app_nil_r; exact X|]. rewrite Y. destruct ct; exact (Hi i Tr).
    + apply in_seq in Tr. pose proof (su_new _ _ _ _ _ _ _ _ _ _ Su (i - S (s_icount s)) ltac:(lia)) as X. replace (S (s_icount s) + (i - S (s_icount s))) with i in X by lia.
      rewrite (nr_init _ _ _ _ _ _ _ X). apply Z.leb_gt. lia.
  - intros i Vi Nm. rewrite matchable_alive in Nm.
    assert (D : last_det s' i = last_det s i /\ (~ tracked s' i \/ (hit_counter s' i < 0)%Z)).
    { destruct (in_dec Nat.eq_dec i (kept c s)) as [Hk|Hk].
      - assert (Hh : (hit_counter s i < 0)%Z).
        { destruct (Z_lt_le_dec (hit_counter s i) 0) as [X|X]; [exact X|]. exfalso. apply Nm. unfold alive. apply filter_In. split; [exact Hk|]. apply Z.leb_le. exact X. }
        destruct (su_missed _ _ _ _ _ _ _ _ _ _ Su i Hk) as [m Y].
        { cbn. rewrite app_nil_r. intros X. apply Nm, inits_alive, (su_obj1 _ _ _ _ _ _ _ _ _ _ Su), X. }
        split; [unfold last_det; rewrite Y; destruct ct; reflexivity|]. right. unfold hit_counter in *. rewrite Y. destruct ct; cbn; lia.
      - split; [unfold last_det; rewrite (su_gone _ _ _ _ _ _ _ _ _ _ Su i Vi Hk); reflexivity|]. left. rewrite (tracked_old _ _ _ _ _ _ _ _ _ _ i T Su Vi). tauto. }
    destruct D as [D1 D2]. split; [|split; [exact D1|]].
    + intros (X & Y & _). destruct D2 as [D2|D2]; [auto|lia].
    + rewrite Ho. unfold get_active_objects. rewrite filter_In. unfold is_active, hit_counter_is_positive. intros [X Y]. destruct D2 as [D2|D2]; [auto|].
      apply andb_prop in Y as [_ Y]. apply Z.leb_le in Y. unfold hit_counter in D2. lia.
Qed.
Theorem video_no_delay c (s : st) fs i : rnd_ok (tc_rnd c) -> tracker_state c s -> video c s fs -> (forall fr, In fr fs -> (tc_delay c < f_period fr)%Z) ->
  (forall i, tracked s i -> o_initializing (s_store s i) = false) -> known s i -> ~ matchable c s i ->
  forall fr, In fr fs -> last_det (f_post fr) i = last_det s i /\ ~ In i (f_out fr).
Proof.
  intros Hr Ht V. revert Ht. induction V as [s|s heap g dets p ct s' out fs Hg E V IH]; intros Ht Hp Hi Hk Nm fr Hin; [destruct Hin|].
  assert (Ht' : tracker_state c (meanwhile s heap g)) by (apply ts_meanwhile; auto).
  pose proof (icount_video laws c s _ Hr Ht (video_cons c s heap g dets p ct s' out fs Hg E V) _ (or_introl eq_refl)) as [_ L]. cbn in L.
  destruct (call_no_delay c dets p ct _ s' out Hr Ht' (Hp _ (or_introl eq_refl)) Hi E) as [A B]. destruct (B i Hk Nm) as (B1 & B2 & B3). change (last_det (meanwhile s heap g) i) with (last_det s i) in B2.
  destruct Hin as [<-|Hin]; [cbn; auto|]. rewrite <- B2. apply IH; auto.
  - change s' with (fst (s', @Ret (list nat) out)). rewrite <- E. apply ts_update, Ht'.
  - intros. apply Hp. right. auto.
  - unfold known in *. lia.
Qed.
End NoDelay.

(** A decision procedure, for examples. *)
Section Check.
Context {N : Num} {FO : filter_ops N}.
Variable who : nat -> nat.
Definition reid_nearb (c : tconf FO) (f : cview FO -> oview FO -> result (dval N)) (s0 s' : st FO) (j i : nat) : bool :=
  label_eqb (obj_label s' j) (obj_label s0 i) &&
  match f (VObj (view_obj s' j)) (view_obj s0 i) with Ret d => dltb (tc_rnd c d) (tc_reid_threshold c) | Raise _ => false end.
Lemma reid_nearb_ok c f s0 s' j i : reid_nearb c f s0 s' j i = true <-> reid_near c f s0 s' j i.
Proof.
  unfold reid_nearb, reid_near. rewrite andb_true_iff, label_eqb_eq. destruct (f _ _) as [d|e]; split; intros [A B]; split; auto; eauto.
  - destruct B as (d' & E & B). injection E as <-. exact B. - discriminate. - destruct B as (d' & E & _). discriminate.
Qed.
Definition recognizedb (c : tconf FO) (f : cview FO -> oview FO -> result (dval N)) (fr : CallSpec.frame FO) : bool :=
  forallb (fun j => forallb (fun i => Bool.eqb (reid_nearb c f (snd (begin_update c (f_dets fr) (f_ct fr) (f_pre fr))) (f_post fr) j i)
    (who (last_det (f_pre fr) j) =? who (last_det (f_pre fr) i))) (dead c (f_pre fr) ++ inits c (f_pre fr))) (uninits c (f_pre fr)).
Lemma recognizedb_ok c f fr : tc_reid_distance c = Some f -> recognizedb c f fr = true -> recognized nat who c fr.
Proof.
  unfold recognizedb. rewrite forallb_forall. intros Ef B g Eg i j Si (Mj & Ij & _). rewrite Ef in Eg. injection Eg as <-.
  assert (Hj : In j (uninits c (f_pre fr))) by (apply filter_In; split; [apply matchable_alive, Mj|exact Ij]).
  specialize (B j Hj). rewrite forallb_forall in B. assert (Hi : In i (dead c (f_pre fr) ++ inits c (f_pre fr))).
  { apply in_app_iff. destruct Si as [X|(X & Y & _)]; [left; apply retired_dead, X|right; apply filter_In; rewrite Y; split; [apply matchable_alive, X|reflexivity]]. }
  apply B, eqb_prop in Hi. rewrite <- reid_nearb_ok, Hi. apply Nat.eqb_eq.
Qed.
End Check.

(** C87: association with distances that tell the things apart. *)
From Coq Require Import ZArith Bool Lia List Arith Permutation.
From Verif Require Import Model.Num Model.Base Model.Matching Model.Filter Model.Tracker Spec.MatchingSpec.
From Verif Require Import Proofs.NumLaws Proofs.MatchingProofs Proofs.TrackerFrame Proofs.Identity Proofs.Effect Proofs.CallEffect Proofs.CallProps Proofs.CallTheorems3.
From Verif Require Import Spec.CallSpec Spec.GroundTruthSpec.
Import ListNotations.
Local Open Scope nat_scope.

Section P.
Context {N : Num} (laws : NumLaws N) {FO : filter_ops N}.
Notation st := (st FO).
Variable thing : Type.
Variable who : nat -> thing.

Lemma NoDup_map_inj {A B} (g : A -> B) l x y : NoDup (map g l) -> In x l -> In y l -> g x = g y -> x = y.
Proof.
  induction l as [|a l IH]; cbn; intros Hn Hx Hy E; [destruct Hx|]. inversion Hn as [|? ? H1 H2]; subst. destruct Hx as [<-|Hx], Hy as [<-|Hy]; auto.
  - exfalso. apply H1. rewrite E. apply in_map, Hy. - exfalso. apply H1. rewrite <- E. apply in_map, Hx.
Qed.
Lemma NoDup_of_map {A B} (g : A -> B) l : NoDup (map g l) -> NoDup l.
Proof. induction l as [|a l IH]; cbn; intros Hn; constructor; inversion Hn; subst; auto. intros X. apply H1, in_map, X. Qed.

Lemma clear_phase c f objects rs p (s s' : st) H rest un (ident : nat -> thing) :
  tc_distance c = ScalarDistance f -> phase_hits c objects rs p s s' H rest un -> NoDup objects -> NoDup (map who rs) ->
  (forall i j, In i objects -> In j objects -> ident i = ident j -> i = j) ->
  (forall i r, In i objects -> In r rs -> (near c f s r i <-> who r = ident i)) ->
  (forall i r, (exists dist, In (i, r, dist) H) <-> In i objects /\ In r rs /\ who r = ident i) /\
  (forall r, In r rest <-> In r rs /\ forall i, In i objects -> ident i <> who r).
Proof.
  intros Ed PH No Nr Hid Hn. destruct (phase_hits_facts _ _ _ _ _ _ _ _ _ No PH) as (_ & A2 & _).
  destruct PH as [(M & pairs & sa & [Pm Pr Pn Pf Pmin _ _] & EH & _ & _ & _)]. rewrite Ed in Pm.
  destruct Pf as (_ & Prg & Pbl & Pst & _). rewrite map_length in *.
  assert (Ent : forall a b r i, nth_error rs a = Some r -> nth_error objects b = Some i -> (dlt (entry M a b) (tc_threshold c) <-> who r = ident i)).
  { intros a b r i Ha Hb. assert (Hr : In r rs) by (eapply nth_error_In; eauto). assert (Hi : In i objects) by (eapply nth_error_In; eauto).
    rewrite <- (Hn i r Hi Hr). assert (Hne : map CDet rs <> []) by (destruct rs; [destruct Hr|discriminate]).
    pose proof (proj2 (scalar_entries _ _ _ _ _ _ (Pm Hne)) a b (CDet r) i) as E. rewrite nth_error_map, Ha in E. specialize (E eq_refl Hb). cbn [cand_label view_cand] in E.
    unfold near. destruct (label_eqb (d_label (s_heap s r)) (obj_label s i)) eqn:El.
    - apply label_eqb_eq in El. cbn in E. destruct (f (VDet (s_heap s r)) (view_obj s i)) as [d|e]; [|discriminate]. injection E as <-.
      split; [intros X; split; [exact El|eauto]|intros (_ & d' & X & Y); injection X as <-; exact Y].
    - cbn in E. injection E as <-. split; [intros X; unfold dlt in X; destruct (tc_threshold c); discriminate|]. intros [X _]. apply label_eqb_eq in X. congruence. }
  assert (Hfw : forall i r dist, In (i, r, dist) H -> In i objects /\ In r rs /\ who r = ident i).
  { intros i r dist Hin. rewrite EH in Hin. destruct (mk_hit_in _ _ _ _ _ _ _ _ _ Prg eq_refl eq_refl Hin) as (a & b & K1 & K2 & K3 & _).
    split; [eapply nth_error_In; eauto|]. split; [eapply nth_error_In; eauto|]. apply (Ent _ _ _ _ K2 K3), Pbl, K1. }
  assert (Hbw : forall i r, In i objects -> In r rs -> who r = ident i -> exists dist, In (i, r, dist) H).
  { intros i r Hi Hr E. apply In_nth_error in Hi as [b Hb]. apply In_nth_error in Hr as [a Ha].
    assert (La : a < length rs) by (apply nth_error_Some; congruence). assert (Lb : b < length objects) by (apply nth_error_Some; congruence).
    assert (X : exists a' b', In (a', b') pairs /\ nth_error rs a' = Some r /\ nth_error objects b' = Some i).
    { destruct (Pst a b La Lb (proj2 (Ent _ _ _ _ Ha Hb) E)) as [K|[(b' & K & _)|(a' & K & _)]]; [eauto| |].
      - exists a, b'. split; [exact K|]. split; [exact Ha|]. destruct (Prg _ _ K) as [_ L]. destruct (nth_error objects b') as [i'|] eqn:E'; [|apply nth_error_None in E'; lia].
        f_equal. apply Hid; [eapply nth_error_In; eauto|eapply nth_error_In; eauto|]. rewrite <- E. symmetry. apply (Ent _ _ _ _ Ha E'), Pbl, K.
      - exists a', b. split; [exact K|]. split; [|exact Hb]. destruct (Prg _ _ K) as [L _]. destruct (nth_error rs a') as [r'|] eqn:E'; [|apply nth_error_None in E'; lia].
        f_equal. apply (NoDup_map_inj who rs); [exact Nr|eapply nth_error_In; eauto|eapply nth_error_In; eauto|]. rewrite E. apply (Ent _ _ _ _ E' Hb), Pbl, K. }
    destruct X as (a' & b' & K & K1 & K2). exists (entry M a' b'). rewrite EH. apply in_map_iff. exists (a', b'). split; [|exact K]. unfold mk_hit. cbn.
    rewrite (nth_error_nth _ _ 0 K1), (nth_error_nth _ _ 0 K2). reflexivity. }
  split.
  - intros i r. split; [intros [d Hd]; eapply Hfw; eauto|intros (X & Y & Z); apply Hbw; auto].
  - intros r. assert (Nd : NoDup (map h_det H ++ rest)) by (eapply Permutation_NoDup; [exact A2|eapply NoDup_of_map; eauto]). split.
    + intros Hr. split; [eapply Permutation_in; [symmetry; exact A2|]; apply in_app_iff; auto|]. intros i Hi E.
      destruct (Hbw i r) as [d Hd]; auto; [eapply Permutation_in; [symmetry; exact A2|]; apply in_app_iff; auto|].
      eapply (NoDup_app_disj _ _ r Nd); [|exact Hr]. apply in_map_iff. exists (i, r, d). auto.
    + intros [Hr Hx]. apply (Permutation_in _ A2) in Hr. apply in_app_iff in Hr as [Hr|Hr]; [|exact Hr]. apply in_map_iff in Hr as ([[i r'] d] & E & Hin). cbn in E. subst r'.
      destruct (Hfw _ _ _ Hin) as (K1 & _ & K2). exfalso. apply (Hx i K1). auto.
Qed.

Lemma same_upto (d d' : detection N) : same_age d d' -> upto_age d d'.
Proof. intros (A & B & C & D & E). repeat split; auto. Qed.
Lemma near_same c f (s s1 : st) r i : age_blind f -> heap_age (s_heap s) (s_heap s1) -> s_store s1 i = s_store s i -> (near c f s r i <-> near c f s1 r i).
Proof.
  intros Ab Ha Es. assert (E : f (VDet (s_heap s r)) (view_obj s i) = f (VDet (s_heap s1 r)) (view_obj s1 i)).
  { apply Ab; cbn.
    - apply same_upto, Ha. - auto. - rewrite Es. apply same_upto, Ha.
    - rewrite Es. induction (o_past (s_store s i)); cbn; constructor; auto. apply same_upto, Ha. }
  assert (El : d_label (s_heap s r) = d_label (s_heap s1 r)) by apply (Ha r). unfold near, obj_label. rewrite E, El, Es. reflexivity.
Qed.

Theorem call_right c f dets p ct (s s' : st) out : rnd_ok (tc_rnd c) -> tracker_state c s -> tc_distance c = ScalarDistance f -> age_blind f ->
  tc_reid_distance c = None -> update c (Some dets) p ct s = (s', Ret out) -> one_each thing who c s ->
  unambiguous thing who c f (MkFrame dets p ct s s' out) -> right_association thing who c (MkFrame dets p ct s s' out).
Proof.
  intros Hr Ht Ed Ab Nre E One [Un1 Un2]. cbn [f_dets f_pre f_ct] in *. apply tracker_state_good in Ht as [T C].
  destruct (update_effect laws _ _ _ _ _ _ _ Hr (ti_nodup _ T) E) as (s0 & s1 & s2 & s3 & H1 & H2 & G & rest1 & news & un1 & He & Ho & Es0). cbn [dets_of] in *. rewrite <- Es0 in Un2.
  pose proof (effect_summary _ _ _ _ _ _ _ _ _ _ _ _ _ _ _ _ T He) as Su. destruct He as [ST PH1 (un2 & PH2) _ _ _].
  assert (Na : NoDup (alive c s)) by (unfold alive, kept; repeat apply NoDup_filter; apply (ti_nodup _ T)).
  assert (Ni : NoDup (inits c s)) by (apply NoDup_filter; auto). assert (Nu : NoDup (uninits c s)) by (apply NoDup_filter; auto).
  assert (Un : forall i r, In i (alive c s) -> In r dets -> (near c f s0 r i <-> who r = who (last_det s i))) by (intros i r Hi; apply Un2, matchable_alive, Hi).
  assert (One' : forall i j, In i (alive c s) -> In j (alive c s) -> who (last_det s i) = who (last_det s j) -> i = j) by (intros i j Hi Hj; apply One; apply matchable_alive; auto).
  destruct (phase_hits_facts _ _ _ _ _ _ _ _ _ Ni PH1) as (_ & A2 & _ & A4 & _ & _ & _ & _ & A9 & _).
  destruct (clear_phase c f (inits c s) dets p s0 s1 H1 rest1 un1 (fun i => who (last_det s i)) Ed PH1 Ni Un1) as [B1 B2].
  { intros i j Hi Hj. apply One'; apply inits_alive; auto. } { intros i r Hi Hr'. apply Un; auto. apply inits_alive, Hi. }
  assert (Nr1 : NoDup (map who rest1)).
  { assert (X : NoDup (map who (map h_det H1 ++ rest1))) by (eapply Permutation_NoDup; [apply Permutation_map, A2|exact Un1]). rewrite map_app in X. eapply NoDup_app_r; eauto. }
  destruct (clear_phase c f (uninits c s) rest1 p s1 s2 H2 news un2 (fun i => who (last_det s i)) Ed PH2 Nu Nr1) as [C1 C2].
  { intros i j Hi Hj. apply One'; apply uninits_alive; auto. }
  { intros i r Hi Hr'. rewrite <- (near_same c f s0 s1 r i Ab A4); [|apply A9; intros X; eapply inits_not_uninits; eauto]. apply Un; [apply uninits_alive, Hi|apply B2, Hr']. }
  assert (G0 : G = []) by (apply (su_noreid _ _ _ _ _ _ _ _ _ _ Su), Nre). subst G.
  assert (AI : forall i, In i (alive c s) -> In i (inits c s) \/ In i (uninits c s)).
  { intros i Hi. unfold inits, uninits. rewrite !filter_In. destruct (o_initializing (s_store s i)); auto. }
  assert (Hit : forall i r, (exists dist, In (i, r, dist) (H1 ++ H2)) <-> In i (alive c s) /\ In r dets /\ who r = who (last_det s i)).
  { intros i r. split.
    - intros [d Hd]. apply in_app_iff in Hd as [Hd|Hd].
      + destruct (proj1 (B1 i r) (ex_intro _ d Hd)) as (X & Y & Z). split; [apply inits_alive, X|auto].
      + destruct (proj1 (C1 i r) (ex_intro _ d Hd)) as (X & Y & Z). split; [apply uninits_alive, X|]. split; [apply B2, Y|exact Z].
    - intros (Hi & Hr' & Ew). destruct (AI i Hi) as [X|X].
      + destruct (proj2 (B1 i r)) as [d Hd]; [auto|]. exists d. apply in_app_iff; auto.
      + destruct (proj2 (C1 i r)) as [d Hd]; [|exists d; apply in_app_iff; auto]. split; [exact X|]. split; [|exact Ew]. apply B2. split; [exact Hr'|].
        intros j Hj Ej. assert (j = i); [|subst; eapply inits_not_uninits; eauto]. apply One'; [apply inits_alive, Hj|exact Hi|congruence]. }
  assert (News : forall r, In r news <-> In r dets /\ forall i, In i (alive c s) -> who (last_det s i) <> who r).
  { intros r. rewrite C2, B2. split.
    - intros [[X Y] Z]. split; [exact X|]. intros i Hi. destruct (AI i Hi); auto.
    - intros [X Y]. split; [split; [exact X|]|]; intros i Hi; apply Y; [apply inits_alive|apply uninits_alive]; exact Hi. }
  assert (LH : forall i r dist, In (i, r, dist) (H1 ++ H2) -> last_det s' i = r).
  { intros i r dist Hin. destruct (su_hit _ _ _ _ _ _ _ _ _ _ Su i r dist Hin) as (om & _ & X). eapply hit_last; eauto. }
  assert (LM : forall i, valid s i -> ~ (exists r dist, In (i, r, dist) (H1 ++ H2)) -> last_det s' i = last_det s i).
  { intros i Vi Hx. destruct (in_dec Nat.eq_dec i (kept c s)) as [Hk|Hk].
    - destruct (su_missed _ _ _ _ _ _ _ _ _ _ Su i Hk) as [m X].
      + cbn. rewrite app_nil_r, <- map_app. intros X. apply in_map_iff in X as ([[i' r] d] & X & Hin). cbn in X. subst i'. eauto.
      + unfold last_det. rewrite X. destruct ct; reflexivity.
    - unfold last_det. rewrite (su_gone _ _ _ _ _ _ _ _ _ _ Su i Vi Hk). reflexivity. }
  assert (Hdec : forall i, (exists r dist, In (i, r, dist) (H1 ++ H2)) \/ ~ (exists r dist, In (i, r, dist) (H1 ++ H2))).
  { intros i. destruct (in_dec Nat.eq_dec i (map h_obj (H1 ++ H2))) as [X|X].
    - left. apply in_map_iff in X as ([[i' r] d] & X & Hin). cbn in X. subst i'. eauto.
    - right. intros (r & d & Hin). apply X. apply in_map_iff. exists (i, r, d). auto. }
  assert (Keep : forall i, valid s i -> who (last_det s' i) = who (last_det s i)).
  { intros i Vi. destruct (Hdec i) as [(r & d & Hin)|Hx]; [|rewrite LM; auto]. rewrite (LH _ _ _ Hin). apply (Hit i r). eauto. }
  assert (LN : forall k, k < length news -> last_det s' (S (s_icount s) + k) = nth k news 0) by (intros k Hk; apply (nr_last _ _ _ _ _ _ _ (su_new _ _ _ _ _ _ _ _ _ _ Su k Hk))).
  assert (Ic : s_icount s' = s_icount s + length news) by apply Su.
  assert (NewI : forall i, s_icount s < i <= s_icount s' -> exists k, k < length news /\ i = S (s_icount s) + k).
  { intros i Hi. exists (i - S (s_icount s)). lia. }
  assert (OldM : forall i, matchable c s' i -> valid s i -> In i (alive c s)).
  { intros i Hm Vi. destruct Hm as (Tr & Hh & _). unfold tracked in Tr. rewrite (su_tracked _ _ _ _ _ _ _ _ _ _ Su) in Tr. apply in_app_iff in Tr as [Tr|Tr]; [|apply in_seq in Tr; destruct Vi; lia].
    unfold remove_all in Tr. apply filter_In in Tr as [Hk _]. destruct (Hdec i) as [(r & d & Hin)|Hx]; [apply (Hit i r); eauto|].
    destruct (su_missed _ _ _ _ _ _ _ _ _ _ Su i Hk) as [m X].
    { cbn. rewrite app_nil_r, <- map_app. intros X. apply in_map_iff in X as ([[i' r] d] & X & Hin). cbn in X. subst i'. eauto. }
    unfold alive. apply filter_In. split; [exact Hk|]. unfold hit_counter in Hh. rewrite X in Hh. unfold hit_counter_is_positive. apply Z.leb_le. destruct ct; cbn in Hh; lia. }
  constructor; cbn [f_dets f_pre f_post].
  - exact Keep.
  - intros i r Hm Hr' Ew. apply matchable_alive in Hm. destruct (proj2 (Hit i r)) as [d Hd]; auto. eapply LH; eauto.
  - intros i Vi Hx. apply LM; [exact Vi|]. intros (r & d & Hin). apply Hx. destruct (proj1 (Hit i r) (ex_intro _ d Hin)) as (X & Y & Z). split; [apply matchable_alive, X|eauto].
  - intros r Hr' Hx. assert (X : In r news) by (apply News; split; [exact Hr'|intros i Hi; apply Hx, matchable_alive, Hi]).
    apply (In_nth _ _ 0) in X as (k & Hk & Ek). exists (S (s_icount s) + k). split; [lia|]. split; [|rewrite LN; auto].
    unfold tracked. rewrite (su_tracked _ _ _ _ _ _ _ _ _ _ Su). apply in_app_iff. right. apply in_seq. lia.
  - intros i Hi. destruct (NewI i Hi) as (k & Hk & ->). rewrite LN by auto. assert (X : In (nth k news 0) news) by (apply nth_In, Hk). apply News in X as [X Y].
    split; [exact X|]. intros j Hj. apply Y, matchable_alive, Hj.
  - intros i j Mi Mj Ew.
    assert (Cs : forall x, matchable c s' x -> valid s x \/ s_icount s < x <= s_icount s').
    { intros x (Tr & _). unfold tracked in Tr. rewrite (su_tracked _ _ _ _ _ _ _ _ _ _ Su) in Tr. apply in_app_iff in Tr as [Tr|Tr].
      - left. unfold remove_all in Tr. apply filter_In in Tr as [Hk _]. apply kept_tracked in Hk. pose proof (ti_valid _ T) as V. rewrite Forall_forall in V. auto.
      - right. apply in_seq in Tr. lia. }
    assert (Mix : forall x y, matchable c s' x -> valid s x -> s_icount s < y <= s_icount s' -> who (last_det s' x) = who (last_det s' y) -> False).
    { intros x y Mx Vx Hy Exy. destruct (NewI y Hy) as (k & Hk & ->). rewrite LN in Exy by auto. assert (X : In (nth k news 0) news) by (apply nth_In, Hk). apply News in X as [_ Y].
      apply (Y x); [apply OldM; auto|]. rewrite <- Keep by auto. exact Exy. }
    destruct (Cs i Mi) as [Vi|Vi], (Cs j Mj) as [Vj|Vj].
    + apply One'; [apply OldM; assumption|apply OldM; assumption|]. rewrite <- (Keep i Vi), <- (Keep j Vj). exact Ew.
    + exfalso. exact (Mix i j Mi Vi Vj Ew).
    + exfalso. exact (Mix j i Mj Vj Vi (eq_sym Ew)).
    + destruct (NewI i Vi) as (k & Hk & ->). destruct (NewI j Vj) as (l & Hl & ->). rewrite !LN in Ew by auto. f_equal.
      assert (Nn : NoDup (map who news)).
      { pose proof (su_perm _ _ _ _ _ _ _ _ _ _ Su) as Pm. assert (X : NoDup (map who (map h_det H1 ++ map h_det H2 ++ news))) by (eapply Permutation_NoDup; [apply Permutation_map, Pm|exact Un1]).
        rewrite !map_app in X. apply NoDup_app_r in X. eapply NoDup_app_r; eauto. }
      apply (proj1 (NoDup_nth (map who news) (who 0)) Nn); rewrite ?map_length; auto. rewrite !map_nth. exact Ew.
Qed.

Lemma one_each_meanwhile c (s : st) h g : one_each thing who c s -> one_each thing who c (meanwhile s h g).
Proof. exact (fun H => H). Qed.

Theorem video_right c f (s : st) fs : rnd_ok (tc_rnd c) -> tracker_state c s -> tc_distance c = ScalarDistance f -> age_blind f -> tc_reid_distance c = None ->
  video c s fs -> one_each thing who c s -> (forall fr, In fr fs -> unambiguous thing who c f fr) -> forall fr, In fr fs -> right_association thing who c fr.
Proof.
  intros Hr Ht Ed Ab Nre V. revert Ht. induction V as [s|s heap g dets p ct s' out fs Hg E V IH]; intros Ht One Un fr Hin; [destruct Hin|].
  assert (R : right_association thing who c (MkFrame dets p ct (meanwhile s heap g) s' out)).
  { apply (call_right c f); auto; [apply ts_meanwhile; auto|apply Un; left; reflexivity]. }
  destruct Hin as [<-|Hin]; [exact R|]. apply IH; auto.
  - change s' with (fst (s', @Ret (list nat) out)). rewrite <- E. apply ts_update, ts_meanwhile; auto.
  - apply (ra_one_each _ _ _ _ R).
  - intros. apply Un. right. auto.
Qed.
Lemma icount_video c (s : st) fs : rnd_ok (tc_rnd c) -> tracker_state c s -> video c s fs -> forall fr, In fr fs -> s_icount s <= s_icount (f_pre fr) /\ s_icount (f_pre fr) <= s_icount (f_post fr).
Proof.
  intros Hr Ht V. revert Ht. induction V as [s|s heap g dets p ct s' out fs Hg E V IH]; intros Ht fr Hin; [destruct Hin|].
  assert (Ht' : tracker_state c (meanwhile s heap g)) by (apply ts_meanwhile; auto).
  assert (L : s_icount s <= s_icount s').
  { apply tracker_state_good in Ht' as [T _]. destruct (update_summary laws _ _ _ _ _ _ _ Hr T E) as (H1 & H2 & G & news & Su & _). rewrite (su_icount _ _ _ _ _ _ _ _ _ _ Su). cbn. lia. }
  destruct Hin as [<-|Hin]; [cbn; auto|]. destruct (IH) with (fr := fr) as [A B]; auto; [|lia].
  change s' with (fst (s', @Ret (list nat) out)). rewrite <- E. apply ts_update, ts_meanwhile; auto.
Qed.
Theorem video_constant c f (s : st) fs i : rnd_ok (tc_rnd c) -> tracker_state c s -> tc_distance c = ScalarDistance f -> age_blind f -> tc_reid_distance c = None ->
  video c s fs -> one_each thing who c s -> (forall fr, In fr fs -> unambiguous thing who c f fr) -> known s i ->
  forall fr, In fr fs -> who (last_det (f_post fr) i) = who (last_det s i).
Proof.
  intros Hr Ht Ed Ab Nre V One Un Hk fr Hin. pose proof (video_right c f s fs Hr Ht Ed Ab Nre V One Un) as R. clear Un One Ed Ab Nre f.
  revert Ht Hk Hin. induction V as [s|s heap g dets p ct s' out fs Hg E V IH]; intros Ht Hk Hin; [destruct Hin|].
  pose proof (icount_video c s _ Hr Ht (video_cons c s heap g dets p ct s' out fs Hg E V) _ (or_introl eq_refl)) as [_ L]. cbn in L.
  pose proof (ra_keeps _ _ _ _ (R _ (or_introl eq_refl)) i Hk) as K. cbn in K. destruct Hin as [<-|Hin]; [exact K|].
  rewrite IH; auto; [intros; apply R; right; auto| |unfold known in *; lia].
  change s' with (fst (s', @Ret (list nat) out)). rewrite <- E. apply ts_update, ts_meanwhile; auto.
Qed.
End P.

(** A decision procedure, for examples. *)
Section Check.
Context {N : Num} {FO : filter_ops N}.
Variable who : nat -> nat.
Definition nearb (c : tconf FO) (f : cview FO -> oview FO -> result (dval N)) (s : st FO) (r i : nat) : bool :=
  label_eqb (d_label (s_heap s r)) (obj_label s i) &&
  match f (VDet (s_heap s r)) (view_obj s i) with Ret d => dltb (tc_rnd c d) (tc_threshold c) | Raise _ => false end.
Lemma nearb_ok c f s r i : nearb c f s r i = true <-> near c f s r i.
Proof.
  unfold nearb, near. rewrite andb_true_iff, label_eqb_eq. destruct (f _ _) as [d|e]; split; intros [A B]; split; auto; eauto.
  - destruct B as (d' & E & B). injection E as <-. exact B. - discriminate. - destruct B as (d' & E & _). discriminate.
Qed.
Fixpoint nodupb (l : list nat) : bool := match l with [] => true | x :: l' => negb (existsb (Nat.eqb x) l') && nodupb l' end.
Lemma nodupb_ok l : nodupb l = true -> NoDup l.
Proof.
  induction l as [|x l IH]; cbn; constructor; apply andb_prop in H as [A B]; auto. intros X. apply negb_true_iff in A.
  assert (existsb (Nat.eqb x) l = true); [|congruence]. apply existsb_exists. exists x. split; [exact X|apply Nat.eqb_refl].
Qed.
Definition unambiguousb (c : tconf FO) (f : cview FO -> oview FO -> result (dval N)) (fr : frame FO) : bool :=
  nodupb (map who (f_dets fr)) &&
  forallb (fun i => forallb (fun r => Bool.eqb (nearb c f (snd (begin_update c (f_dets fr) (f_ct fr) (f_pre fr))) r i) (who r =? who (last_det (f_pre fr) i))) (f_dets fr)) (alive c (f_pre fr)).
Lemma unambiguousb_ok c f fr : unambiguousb c f fr = true -> unambiguous nat who c f fr.
Proof.
  unfold unambiguousb. rewrite andb_true_iff, forallb_forall. intros [A B]. split; [apply nodupb_ok, A|]. intros i r Hi Hr.
  apply matchable_alive in Hi. specialize (B i Hi). rewrite forallb_forall in B. apply B, eqb_prop in Hr. rewrite <- nearb_ok, Hr. apply Nat.eqb_eq.
Qed.
End Check.

(** What one call of [update] that returns normally does, phase by phase. *)
From Coq Require Import ZArith Bool Arith String List Lia Permutation.
From Verif Require Import Model.Num Model.Base Model.Matching Model.Filter Model.Tracker
  Spec.MatchingSpec Proofs.NumLaws Proofs.MatchingProofs Proofs.TrackerFrame Proofs.Identity.
Import ListNotations.

Section Effect.
Context {N : Num} {FO : filter_ops N} (laws : NumLaws N).
Notation st := (st FO).
Notation tobj := (tobj FO).
Notation det := (detection N).

(** Equal up to [age]. *)
Definition same_age (d d' : det) : Prop :=
  d_points d = d_points d' /\ d_scores d = d_scores d' /\ d_label d = d_label d' /\ d_data d = d_data d'
  /\ d_absolute_points d = d_absolute_points d'.
Definition heap_age (h h' : nat -> det) : Prop := forall r, same_age (h r) (h' r).

Lemma same_age_refl d : same_age d d.
Proof. repeat split. Qed.
Lemma same_age_trans a b c : same_age a b -> same_age b c -> same_age a c.
Proof. intros (A1 & A2 & A3 & A4 & A5) (B1 & B2 & B3 & B4 & B5). repeat split; congruence. Qed.
Lemma same_age_sym a b : same_age a b -> same_age b a.
Proof. intros (A1 & A2 & A3 & A4 & A5). repeat split; congruence. Qed.
Lemma heap_age_refl h : heap_age h h.
Proof. intros r. apply same_age_refl. Qed.
Lemma heap_age_trans a b c : heap_age a b -> heap_age b c -> heap_age a c.
Proof. intros H1 H2 r. eapply same_age_trans; eauto. Qed.
Lemma heap_age_sym a b : heap_age a b -> heap_age b a.
Proof. intros H r. apply same_age_sym; auto. Qed.
Lemma heap_age_upd h r a : heap_age h (upd h r (d_set_age a (h r))).
Proof.
  intros r'. destruct (Nat.eq_dec r' r) as [->|Hne]; [rewrite upd_same|rewrite upd_other by auto].
  - repeat split. - apply same_age_refl.
Qed.

(** [past'] is past_detections after offering detection [r], [h'] the heap. *)
Inductive past_step (h : nat -> det) (o : tobj) (r : nat) : list nat -> (nat -> det) -> Prop :=
| past_off : oc_past_len (o_conf o) = 0 -> past_step h o r (o_past o) h
| past_room : oc_past_len (o_conf o) <> 0 -> List.length (o_past o) < oc_past_len (o_conf o) ->
    past_step h o r (o_past o ++ [r]) (upd h r (d_set_age (o_age o) (h r)))
| past_shift first rest a : oc_past_len (o_conf o) <> 0 -> oc_past_len (o_conf o) <= List.length (o_past o) ->
    o_past o = first :: rest -> d_age (h first) = Some a ->
    (a * Z.of_nat (oc_past_len (o_conf o)) <= o_age o)%Z ->
    past_step h o r (rest ++ [r]) (upd h r (d_set_age (o_age o) (h r)))
| past_keep first rest a : oc_past_len (o_conf o) <> 0 -> oc_past_len (o_conf o) <= List.length (o_past o) ->
    o_past o = first :: rest -> d_age (h first) = Some a ->
    (o_age o < a * Z.of_nat (oc_past_len (o_conf o)))%Z ->
    past_step h o r (o_past o) h.

Lemma past_step_heap h o r past' h' : past_step h o r past' h' -> heap_age h h'.
Proof. destruct 1; try apply heap_age_refl; apply heap_age_upd. Qed.

Lemma past_step_incl h o r past' h' : past_step h o r past' h' -> incl past' (o_past o ++ [r]).
Proof.
  destruct 1 as [| |first rest a A B C D F|]; try (apply incl_appl, incl_refl); [apply incl_refl|].
  rewrite C. intros x Hx. right. auto.
Qed.

(** Frame of an operation on object [i] that keeps the list of tracked objects. *)
Record frame (i : nat) (s s' : st) : Prop := {
  fr_heap : heap_age (s_heap s) (s_heap s');
  fr_store : forall j, j <> i -> s_store s' j = s_store s j;
  fr_tracked : s_tracked s' = s_tracked s;
  fr_icount : s_icount s' = s_icount s
}.

Lemma set_past_same (o : tobj) : set_past (o_past o) o = o.
Proof. destruct o; reflexivity. Qed.

Lemma cond_add_past_ret i r (s s' : st) u : cond_add_past i r s = (s', Ret u) ->
  exists past' h', past_step (s_heap s) (s_store s i) r past' h' /\
    s_heap s' = h' /\ s_store s' i = set_past past' (s_store s i) /\ frame i s s' /\
    s_count s' = s_count s /\ s_gcount s' = s_gcount s.
Proof.
  unfold cond_add_past. cbv zeta. set (o := s_store s i). set (len := oc_past_len (o_conf o)).
  destruct (Nat.eqb_spec len 0) as [E0|E0].
  { intros E. injection E as <- _. exists (o_past o), (s_heap s).
    split; [apply past_off; auto|]. rewrite set_past_same. repeat split; auto. }
  destruct (Nat.ltb_spec (List.length (o_past o)) len) as [E1|E1].
  { intros E. injection E as <- _. exists (o_past o ++ [r]), (upd (s_heap s) r (d_set_age (o_age o) (s_heap s r))).
    split; [apply past_room; auto|]. cbn. rewrite upd_same. fold o. split; [reflexivity|]. split; [reflexivity|].
    split; [|auto]. constructor; cbn; auto. - apply heap_age_upd. - intros. rewrite upd_other; auto. }
  destruct (o_past o) as [|first rest] eqn:Ep; [discriminate|].
  destruct (d_age (s_heap s first)) as [a|] eqn:Ea; [|discriminate].
  destruct (Z.leb_spec (a * Z.of_nat len) (o_age o)) as [E2|E2]; intros E; injection E as <- _.
  - exists (rest ++ [r]), (upd (s_heap s) r (d_set_age (o_age o) (s_heap s r))).
    split; [eapply past_shift; eauto; rewrite Ep; auto|]. cbn. rewrite upd_same. fold o. split; [reflexivity|]. split; [reflexivity|].
    split; [|auto]. constructor; cbn; auto. + apply heap_age_upd. + intros. rewrite upd_other; auto.
  - exists (o_past o), (s_heap s). split; [eapply past_keep; eauto; rewrite Ep; auto|].
    rewrite set_past_same. repeat split; auto.
Qed.

(** Effect of [hit] on the object, [d] being the matched detection. *)
Record hit_rel (d : det) (r : nat) (p : Z) (o o' : tobj) : Prop := {
  hr_conf : o_conf o' = o_conf o;
  hr_hit : o_hit o' = Z.min (o_hit o + 2 * p) (oc_hit_counter_max (o_conf o));
  hr_reid : o_reid o' = o_reid o;
  hr_last_distance : o_last_distance o' = o_last_distance o;
  hr_min_distance : o_min_distance o' = o_min_distance o;
  hr_last : o_last_det o' = r;
  hr_age : o_age o' = o_age o;
  hr_init : o_initializing o' = o_initializing o && negb (oc_delay (o_conf o) <? o_hit o')%Z;
  hr_once : o_once o' = map2 orb (o_once o) (over_threshold (oc_det_thr (o_conf o)) (oc_num_points (o_conf o)) d);
  hr_once_len : List.length (o_once o) = oc_num_points (o_conf o);
  hr_mask_len : List.length (over_threshold (oc_det_thr (o_conf o)) (oc_num_points (o_conf o)) d) = oc_num_points (o_conf o);
  hr_points : o_point_hits o' = point_hits_update p (oc_pointwise_max (o_conf o))
      (match d_scores d with
       | Some _ => over_threshold (oc_det_thr (o_conf o)) (oc_num_points (o_conf o)) d
       | None => repeat true (List.length (o_point_hits o)) end) (o_point_hits o);
  hr_points_len : match d_scores d with Some _ => List.length (o_point_hits o) = oc_num_points (o_conf o) | None => True end;
  hr_dim : List.length (flatten (d_absolute_points d)) = dim_z o;
  hr_filter : o_filter o' =
      let mask := over_threshold (oc_det_thr (o_conf o)) (oc_num_points (o_conf o)) d in
      let dim := oc_dim_points (o_conf o) in
      let z := flatten (d_absolute_points d) in
      let f := f_update FO (o_filter o) z (repeat_each dim (map (fun m : bool => if m then n1 else n0) mask)) in
      f_set_x FO f (reset_first_detected dim (dim_z o) mask (o_once o) z (f_x FO f));
  hr_ct : o_abs_to_rel o' = o_abs_to_rel o;
  hr_past : incl (o_past o') (o_past o ++ [r])
}.

Lemma over_threshold_same thr n (d d' : det) : d_scores d = d_scores d' -> over_threshold thr n d = over_threshold thr n d'.
Proof. unfold over_threshold. intros ->. reflexivity. Qed.

Lemma hit_rel_same_age d d' r p o o' : same_age d d' -> hit_rel d r p o o' -> hit_rel d' r p o o'.
Proof.
  intros (A1 & A2 & A3 & A4 & A5) [H1 H2 H3 H4 H5 H6 H7 H8 H9 H10 H11 H12 H13 H14 H15 H16 H17].
  rewrite (over_threshold_same _ _ d d' A2), ?A2, ?A5 in *. constructor; auto.
Qed.

Lemma hit_ret i r p (s s' : st) u : hit i r p s = (s', Ret u) ->
  exists past' h', past_step (s_heap s) (s_store s i) r past' h' /\ s_heap s' = h' /\
    hit_rel (s_heap s r) r p (s_store s i) (s_store s' i) /\ o_past (s_store s' i) = past' /\ frame i s s' /\
    (let init := o_initializing (s_store s i) && (oc_delay (o_conf (s_store s i)) <? o_hit (s_store s' i))%Z in
     s_count s' = (if init then S (s_count s) else s_count s) /\
     s_gcount s' = (if init then S (s_gcount s) else s_gcount s) /\
     o_id (s_store s' i) = (if init then Some (S (s_count s)) else o_id (s_store s i)) /\
     o_gid (s_store s' i) = (if init then Some (S (s_gcount s)) else o_gid (s_store s i))).
Proof.
  unfold hit. destruct (cond_add_past i r s) as [t [u0|e]] eqn:E0; [|discriminate].
  apply cond_add_past_ret in E0 as (past' & h' & Hp & Hh & Hst & Hfr & Hc & Hg).
  intros E. exists past', h'. split; [exact Hp|].
  set (o := s_store s i) in *.
  set (o1 := set_hit (Z.min (o_hit o + 2 * p) (oc_hit_counter_max (o_conf o))) (set_last_det r (set_past past' o))).
  cbv zeta in E.
  assert (Hd : same_age (s_heap s r) (s_heap t r)) by (apply Hfr).
  destruct Hd as (D1 & D2 & D3 & D4 & D5).
  set (init := o_initializing o && (oc_delay (o_conf o) <? Z.min (o_hit o + 2 * p) (oc_hit_counter_max (o_conf o)))%Z).
  set (s2 := mod_obj i (fun o => set_hit _ o) (mod_obj i (set_last_det r) t)) in E.
  assert (Hs2 : s_store s2 i = o1).
  { subst s2. cbn. rewrite !upd_same. rewrite Hst. reflexivity. }
  set (s3 := if o_initializing (s_store s2 i) && _ then _ else s2) in E.
  set (o3 := if init then set_ids (Some (S (s_count s))) (Some (S (s_gcount s))) (set_initializing false o1) else o1).
  assert (Hs3 : s_store s3 i = o3 /\ s_heap s3 = s_heap t /\ (forall j, j <> i -> s_store s3 j = s_store s j) /\
     s_tracked s3 = s_tracked s /\ s_icount s3 = s_icount s /\
     s_count s3 = (if init then S (s_count s) else s_count s) /\
     s_gcount s3 = (if init then S (s_gcount s) else s_gcount s)).
  { subst s3 o3. rewrite Hs2.
    replace (o_initializing o1 && _)%bool with init by reflexivity.
    destruct Hfr as [F1 F2 F3 F4].
    destruct init.
    - unfold acquire_ids. cbn -[upd]. rewrite !upd_same. rewrite Hst, Hc, Hg.
      split; [reflexivity|]. split; [reflexivity|]. split; [intros j Hj; rewrite !upd_other by auto; auto|]. repeat split; congruence.
    - split; [exact Hs2|]. subst s2. cbn -[upd]. repeat split; auto.
      intros j Hj. rewrite !upd_other by auto. auto. }
  clearbody s3. destruct Hs3 as (K1 & K2 & K3 & K4 & K5 & K6 & K7).
  assert (C3 : o_conf o3 = o_conf o) by (subst o3; destruct init; reflexivity).
  assert (P3 : o_point_hits o3 = o_point_hits o) by (subst o3; destruct init; reflexivity).
  assert (O3 : o_once o3 = o_once o) by (subst o3; destruct init; reflexivity).
  assert (F3 : o_filter o3 = o_filter o) by (subst o3; destruct init; reflexivity).
  rewrite K1, K2 in E. unfold dim_z in E. rewrite C3, P3, O3 in E. fold (dim_z o) in E.
  rewrite (over_threshold_same (oc_det_thr (o_conf o)) (oc_num_points (o_conf o)) (s_heap t r) (s_heap s r)) in E by auto.
  rewrite <- D2, <- D5 in E.
  set (mask := over_threshold _ _ (s_heap s r)) in *.
  set (z := flatten (d_absolute_points (s_heap s r))) in *.
  set (counted := match d_scores (s_heap s r) with None => _ | Some _ => mask end) in *.
  destruct (Nat.eqb_spec (List.length counted) (List.length (o_point_hits o))) as [L1|]; cbn [negb] in E; [|discriminate].
  destruct (Nat.eqb_spec (List.length z) (dim_z o)) as [L2|]; cbn [negb orb] in E; [|discriminate].
  destruct (Nat.eqb_spec (List.length mask) (oc_num_points (o_conf o))) as [L3|]; cbn [negb orb] in E; [|discriminate].
  destruct (Nat.eqb_spec (List.length (o_once o)) (List.length mask)) as [L4|]; cbn [negb orb] in E; [|discriminate].
  injection E as <- _.
  cbn -[upd reset_first_detected over_threshold point_hits_update]. rewrite !upd_same. rewrite K1.
  split; [congruence|].
  split; [|split; [|split; [|]]].
  - constructor; cbn -[reset_first_detected over_threshold point_hits_update]; rewrite ?C3, ?P3, ?O3, ?F3; auto; try (subst o3; destruct init; reflexivity).
    + subst o3. assert (X : o_hit (if init then set_ids (Some (S (s_count s))) (Some (S (s_gcount s))) (set_initializing false o1) else o1)
         = Z.min (o_hit o + 2 * p) (oc_hit_counter_max (o_conf o))) by (destruct init; reflexivity).
      rewrite X. unfold init. destruct (o_initializing o) eqn:Ei; destruct (_ <? _)%Z; cbn; auto.
    + congruence.
    + fold mask counted. subst counted. destruct (d_scores (s_heap s r)); [congruence|auto].
    + replace (o_past o3) with past' by (subst o3; destruct init; reflexivity). eapply past_step_incl; eauto.
  - subst o3; destruct init; reflexivity.
  - constructor; cbn -[upd]; auto.
    + rewrite K2. apply Hfr.
    + intros j Hj. rewrite !upd_other by auto. auto.
  - cbn -[upd]. assert (X : o_hit o3 = Z.min (o_hit o + 2 * p) (oc_hit_counter_max (o_conf o))) by (subst o3; destruct init; reflexivity).
    rewrite X. fold init. rewrite K6, K7. repeat split; subst o3; destruct init; reflexivity.
Qed.

(** Objects equal up to [current_min_distance]. *)
Definition upto_min (o o' : tobj) : Prop := exists m, o' = set_min_distance m o.
Lemma upto_min_refl o : upto_min o o.
Proof. exists (o_min_distance o). destruct o; reflexivity. Qed.
Lemma upto_min_trans a b c : upto_min a b -> upto_min b c -> upto_min a c.
Proof. intros [m ->] [m' ->]. exists m'. reflexivity. Qed.

Record min_frame (objects : list nat) (s s' : st) : Prop := {
  mf_heap : s_heap s' = s_heap s;
  mf_store : forall i, upto_min (s_store s i) (s_store s' i);
  mf_other : forall i, ~ In i objects -> s_store s' i = s_store s i;
  mf_tracked : s_tracked s' = s_tracked s;
  mf_icount : s_icount s' = s_icount s;
  mf_count : s_count s' = s_count s;
  mf_gcount : s_gcount s' = s_gcount s
}.
Lemma min_frame_refl objects s : min_frame objects s s.
Proof. constructor; auto using upto_min_refl. Qed.

Lemma set_min_distances_frame thr M objects : forall j s, min_frame objects s (set_min_distances thr M j objects s).
Proof.
  induction objects as [|i objects IH]; intros j s; cbn; [apply min_frame_refl|].
  match goal with |- min_frame _ _ (set_min_distances _ _ _ _ ?x) => specialize (IH (S j) x); set (s1 := x) in * end.
  destruct IH as [H1 H2 H3 H4 H5 H6 H7]. constructor; auto.
  - intros k. eapply upto_min_trans; [|apply H2]. subst s1; cbn.
    destruct (Nat.eq_dec k i) as [->|Hne]; [rewrite upd_same|rewrite upd_other by auto; apply upto_min_refl].
    eexists; reflexivity.
  - intros k Hk. rewrite H3 by (intros C; apply Hk; right; auto). subst s1; cbn. apply upd_other. intros ->. apply Hk; left; auto.
Qed.

(** Sequences of hits: (object, detection, distance). *)
Inductive hits (p : Z) : list (nat * nat * dval N) -> st -> st -> Prop :=
| hits_nil s : hits p [] s s
| hits_cons i r dist l s s1 s' u : hit i r p s = (s1, Ret u) ->
    hits p l (mod_obj i (set_last_distance (Some dist)) s1) s' ->
    hits p ((i, r, dist) :: l) s s'.

Definition h_obj (x : nat * nat * dval N) : nat := fst (fst x).
Definition h_det (x : nat * nat * dval N) : nat := snd (fst x).
Definition h_dist (x : nat * nat * dval N) : dval N := snd x.

(** Effect of a sequence of hits of different objects. *)
Definition hit_obj_rel (h : nat -> det) (p : Z) (r : nat) (dist : dval N) (o o' : tobj) : Prop :=
  exists o1, hit_rel (h r) r p o o1 /\ o' = set_last_distance (Some dist) o1.

Record hits_frame (p : Z) (l : list (nat * nat * dval N)) (s s' : st) : Prop := {
  hf_heap : heap_age (s_heap s) (s_heap s');
  hf_hit : forall i r dist, In (i, r, dist) l -> hit_obj_rel (s_heap s) p r dist (s_store s i) (s_store s' i);
  hf_other : forall i, ~ In i (map h_obj l) -> s_store s' i = s_store s i;
  hf_tracked : s_tracked s' = s_tracked s;
  hf_icount : s_icount s' = s_icount s
}.

Lemma hits_effect p l s s' : hits p l s s' -> NoDup (map h_obj l) -> hits_frame p l s s'.
Proof.
  induction 1 as [s|i r dist l s s1 s' u Hh Hl IH]; intros Hnd.
  - constructor; auto using heap_age_refl. intros ? ? ? [].
  - cbn in Hnd. inversion Hnd as [|? ? Hni Hnd']; subst. destruct (IH Hnd') as [A B C D E].
    apply hit_ret in Hh as (past' & h' & Hp & Hh1 & Hr & Hpast & [F1 F2 F3 F4] & _).
    assert (Ha : heap_age (s_heap s) (s_heap (mod_obj i (set_last_distance (Some dist)) s1))) by exact F1.
    constructor.
    + eapply heap_age_trans; [exact Ha|exact A].
    + intros i0 r0 d0 [E0|Hin].
      * injection E0 as <- <- <-. exists (s_store s1 i). split; [auto|].
        rewrite C; [|exact Hni]. cbn. apply upd_same.
      * destruct (B _ _ _ Hin) as (o1 & Hr1 & Eo1). exists o1. split; [|exact Eo1].
        assert (i0 <> i). { intros ->. apply Hni. apply in_map_iff. exists (i, r0, d0). auto. }
        cbn in Hr1. rewrite upd_other in Hr1 by auto. rewrite F2 in Hr1 by auto.
        eapply hit_rel_same_age; [apply same_age_sym; apply F1|exact Hr1].
    + intros i0 Hn. cbn in Hn. rewrite C by tauto. cbn. rewrite upd_other by (intros ->; apply Hn; left; reflexivity).
      apply F2. intros ->; apply Hn; left; reflexivity.
    + rewrite D. exact F3.
    + rewrite E. exact F4.
Qed.

Definition mk_hit (M : matrix N) (objects rs : list nat) (p : nat * nat) : nat * nat * dval N :=
  (nth (snd p) objects 0, nth (fst p) rs 0, entry M (fst p) (snd p)).

Lemma apply_matches_dets thr M objects rs p pairs : forall uc mo uo s s' uc' mo' uo',
  below (entry M) thr pairs ->
  apply_matches thr M objects (map CDet rs) p pairs uc mo uo s = (s', Ret (uc', mo', uo')) ->
  uc' = uc /\ uo' = uo /\ mo' = mo ++ map (fun q => nth (snd q) objects 0) pairs /\
  hits p (map (mk_hit M objects rs) pairs) s s'.
Proof.
  induction pairs as [|[ci oi] pairs IH]; intros uc mo uo s s' uc' mo' uo' Hb E; cbn in E.
  - injection E as <- <- <- <-. rewrite app_nil_r. repeat split; auto. constructor.
  - destruct (nth_error (map CDet rs) ci) as [c|] eqn:Ec; [|discriminate].
    destruct (nth_error objects oi) as [i|] eqn:Ei; [|discriminate].
    assert (Hlt : dltb (entry M ci oi) thr = true) by (apply Hb; left; reflexivity).
    rewrite Hlt in E. rewrite nth_error_map in Ec. destruct (nth_error rs ci) as [r|] eqn:Er; [|discriminate].
    injection Ec as <-. destruct (hit i r p s) as [s1 [u|e]] eqn:Eh; [|discriminate].
    apply IH in E; [|intros a b Hab; apply Hb; right; auto].
    destruct E as (-> & -> & -> & H). repeat split; auto.
    + cbn. rewrite (nth_error_nth _ _ _ Ei), <- app_assoc. reflexivity.
    + cbn. unfold mk_hit at 1. cbn. rewrite (nth_error_nth _ _ _ Ei), (nth_error_nth _ _ _ Er).
      econstructor; eauto.
Qed.

(* ---- shape of the distance matrix ---- *)
Lemma map_result_ret {A B} (f : A -> result B) l : forall bs, map_result f l = Ret bs ->
  List.length bs = List.length l /\ forall k a b0, nth_error l k = Some a -> f a = Ret (nth k bs b0).
Proof.
  induction l as [|a l IH]; intros bs E; cbn in E.
  - injection E as <-. split; auto. intros [|k]; discriminate.
  - destruct (f a) as [b|e] eqn:Ea; [|discriminate]. destruct (map_result f l) as [bs'|e]; [|discriminate].
    injection E as <-. destruct (IH bs' eq_refl) as [L H]. split; [cbn; auto|].
    intros [|k] a0 b0; cbn; intros E; [injection E as <-; auto|eauto].
Qed.

Lemma scalar_entries rnd f (s : st) objects cands M : scalar_distances rnd f s objects cands = Ret M ->
  rect (List.length cands) (List.length objects) M /\
  forall ci oi c i, nth_error cands ci = Some c -> nth_error objects oi = Some i ->
    (if negb (label_eqb (cand_label s c) (obj_label s i)) then Ret DPInf
     else match f (view_cand s c) (view_obj s i) with Ret d => Ret (rnd d) | Raise e => Raise e end) = Ret (entry M ci oi).
Proof.
  unfold scalar_distances. intros E. apply map_result_ret in E as [L H]. split.
  - split; auto. apply Forall_forall. intros row Hrow.
    apply (In_nth _ _ []) in Hrow as (k & Hk & Erow).
    assert (exists c, nth_error cands k = Some c) as [c Hc].
    { destruct (nth_error cands k) eqn:X; eauto. apply nth_error_None in X. lia. }
    specialize (H k c [] Hc). rewrite Erow in H. apply map_result_ret in H. apply H.
  - intros ci oi c i Hc Hi. specialize (H ci c [] Hc). apply map_result_ret in H as [_ H].
    specialize (H oi i DNaN Hi). exact H.
Qed.

Lemma assign_row_length mask : forall drow (row : list (dval N)), List.length (assign_row mask drow row) = List.length row.
Proof.
  induction mask as [|[] mask IH]; intros drow [|x row]; cbn; auto. destruct drow; cbn; auto.
Qed.
Lemma assign_rows_rect cm om : forall (D M : matrix N) n m, rect n m M -> rect n m (assign_rows cm om D M).
Proof.
  induction cm as [|b cm IH]; intros D M n m [H1 H2]; cbn; [split; auto|].
  destruct M as [|r M]; [destruct b; split; auto|]. inversion H2; subst. cbn.
  assert (HM : rect (List.length M) (List.length r) M) by (split; auto).
  destruct b; [destruct D as [|dr D]|].
  - destruct (IH [] M _ _ HM) as [A B]. split; cbn; auto.
  - destruct (IH D M _ _ HM) as [A B]. split; cbn; auto. constructor; auto. rewrite assign_row_length. reflexivity.
  - destruct (IH D M _ _ HM) as [A B]. split; cbn; auto.
Qed.

Lemma vectorized_loop_rect rnd f (s : st) objects cands labels : forall M M' n m, rect n m M ->
  vectorized_loop rnd f s objects cands labels M = Ret M' -> rect n m M'.
Proof.
  induction labels as [|l labels IH]; intros M M' n m HM E; cbn in E.
  - injection E as <-. auto.
  - destruct (stack _) as [so|]; [|discriminate]. destruct (stack _) as [sc|]; [|discriminate].
    destruct (f sc so) as [D|]; [|discriminate]. destruct (_ && _); [|discriminate].
    eapply IH; [|exact E]. apply assign_rows_rect; auto.
Qed.

Lemma get_distances_rect rnd dist (s : st) objects cands M : get_distances rnd dist s objects cands = Ret M ->
  rect (List.length cands) (List.length objects) M.
Proof.
  destruct dist as [f|f]; cbn; intros E; [apply scalar_entries in E; apply E|].
  assert (H0 : rect (List.length cands) (List.length objects)
                 (map (fun _ => map (fun _ => DPInf) objects) cands : matrix N)).
  { split; [apply map_length|]. apply Forall_forall. intros r Hr. apply in_map_iff in Hr as (? & <- & _). apply map_length. }
  unfold vectorized_distances in E. destruct objects as [|o objects]; [injection E as <-; exact H0|].
  destruct cands as [|c cands]; [injection E as <-; exact H0|].
  eapply vectorized_loop_rect; [exact H0|exact E].
Qed.

(* ---- selecting by index ---- *)
Lemma not_in_idxs_map {A B} (f : A -> B) idxs l : forall k, not_in_idxs idxs k (map f l) = map f (not_in_idxs idxs k l).
Proof. induction l as [|a l IH]; intros k; cbn; auto. destruct (existsb _ _); cbn; rewrite IH; reflexivity. Qed.
Lemma not_in_idxs_nil {A} (l : list A) : forall k, not_in_idxs [] k l = l.
Proof. induction l as [|a l IH]; intros k; cbn; auto. rewrite IH. reflexivity. Qed.

Lemma not_in_idxs_seq {A} idxs (d : A) l : forall k,
  not_in_idxs idxs k l = map (fun q => nth (q - k) l d) (filter (fun q => negb (existsb (Nat.eqb q) idxs)) (seq k (List.length l))).
Proof.
  induction l as [|a l IH]; intros k; cbn; auto. rewrite (IH (S k)).
  assert (E : forall q, In q (filter (fun q => negb (existsb (Nat.eqb q) idxs)) (seq (S k) (List.length l))) ->
      nth (q - S k) l d = nth (q - k) (a :: l) d).
  { intros q Hq. apply filter_In in Hq as [Hq _]. apply in_seq in Hq.
    replace (q - k) with (S (q - S k)) by lia. reflexivity. }
  destruct (existsb (Nat.eqb k) idxs); cbn [negb filter map].
  - apply map_ext_in. exact E.
  - rewrite Nat.sub_diag. cbn [nth]. f_equal. apply map_ext_in. exact E.
Qed.

Lemma NoDup_perm_filter idxs n : NoDup idxs -> (forall i, In i idxs -> i < n) ->
  Permutation (seq 0 n) (idxs ++ filter (fun q => negb (existsb (Nat.eqb q) idxs)) (seq 0 n)).
Proof.
  intros Hnd Hr. apply NoDup_Permutation.
  - apply seq_NoDup.
  - apply NoDup_app_iff || idtac.
    assert (forall l1 l2 : list nat, NoDup l1 -> NoDup l2 -> (forall x, In x l1 -> ~ In x l2) -> NoDup (l1 ++ l2)) as H.
    { clear. induction l1 as [|a l1 IH]; intros l2 H1 H2 H; cbn; auto. inversion H1; subst. constructor.
      - rewrite in_app_iff. intros [C|C]; [auto|]. apply (H a); [left; auto|auto].
      - apply IH; auto. intros x Hx. apply H. right; auto. }
    apply H; auto. { apply NoDup_filter, seq_NoDup. }
    intros x Hx C. apply filter_In in C as [_ C]. apply negb_true_iff in C.
    assert (existsb (Nat.eqb x) idxs = true); [|congruence]. apply existsb_exists. exists x. split; auto. apply Nat.eqb_refl.
  - intros x. rewrite in_app_iff, filter_In, in_seq, negb_true_iff. split.
    + intros Hx. destruct (existsb (Nat.eqb x) idxs) eqn:E.
      * left. apply existsb_exists in E as (y & Hy & E). apply Nat.eqb_eq in E. subst; auto.
      * right. auto.
    + intros [Hx|[Hx _]]; auto. apply Hr in Hx. lia.
Qed.

(** The selected elements and the remaining ones, together, are the list. *)
Lemma select_perm {A} (d : A) idxs l : NoDup idxs -> (forall i, In i idxs -> i < List.length l) ->
  Permutation l (map (fun k => nth k l d) idxs ++ not_in_idxs idxs 0 l).
Proof.
  intros Hnd Hr. rewrite (not_in_idxs_seq idxs d l 0).
  assert (E : l = map (fun k => nth k l d) (seq 0 (List.length l))).
  { clear. induction l as [|a l IH]; cbn; auto. f_equal. rewrite <- seq_shift, map_map. exact IH. }
  rewrite E at 1.
  rewrite (Permutation_map (fun k => nth k l d) (NoDup_perm_filter idxs (List.length l) Hnd Hr)).
  rewrite map_app. apply Permutation_app_head.
  rewrite (map_ext (fun q => nth (q - 0) l d) (fun k => nth k l d)); [reflexivity|].
  intros q. rewrite Nat.sub_0_r. reflexivity.
Qed.

(* ---- one association phase with detections ---- *)
Definition rnd_ok (rnd : dval N -> dval N) : Prop := forall x, dis_nan (rnd x) = dis_nan x.

Lemma match_final rnd n m thr (M : matrix N) dis ois : rnd_ok rnd -> rect n m M -> nan_free M ->
  match_dets_and_objs rnd thr M = Some (dis, ois) ->
  List.length dis = List.length ois /\ final n m thr M (combine dis ois).
Proof.
  intros Hr HM Hn E. eapply match_correct; eauto. rewrite Hr. apply dis_nan_succ.
Qed.

Lemma combine_fst {A B} (a : list A) (b : list B) : List.length a = List.length b -> map fst (combine a b) = a.
Proof. revert b. induction a as [|x a IH]; intros [|y b] H; cbn in *; try discriminate; auto. f_equal. auto. Qed.
Lemma combine_snd {A B} (a : list A) (b : list B) : List.length a = List.length b -> map snd (combine a b) = b.
Proof. revert b. induction a as [|x a IH]; intros [|y b] H; cbn in *; try discriminate; auto. f_equal. auto. Qed.

Lemma final_nil n thr : final 0 n thr ([] : matrix N) [].
Proof.
  split; [split; constructor|]. split; [intros ? ? []|]. split; [intros ? ? []|]. split; [|exact I].
  intros i j Hi. lia.
Qed.

(** Result of a phase: matrix, matched index pairs, intermediate state. *)
Record phase (rnd : dval N -> dval N) (dist : distance FO) (thr : dval N) (objects : list nat)
    (cands : list cand) (s : st) (M : matrix N) (pairs : list (nat * nat)) (s1 : st) : Prop := {
  ph_matrix : cands <> [] -> get_distances rnd dist s objects cands = Ret M;
  ph_rect : cands <> [] -> rect (List.length cands) (List.length objects) M;
  ph_nan : nan_free M;
  ph_final : final (List.length cands) (List.length objects) thr M pairs;
  ph_min : min_frame objects s s1;
  ph_exact : cands <> [] -> (exists dis ois, match_dets_and_objs rnd thr M = Some (dis, ois) /\ pairs = combine dis ois) /\
     s1 = (if existsb dtruth (List.concat M) then set_min_distances thr M 0 objects s else s);
  ph_empty : cands = [] -> pairs = [] /\ s1 = s
}.

Lemma uip_phase rnd dist thr objects cands p (s s' : st) out : rnd_ok rnd ->
  update_objects_in_place rnd dist thr objects cands p s = (s', Ret out) ->
  exists M pairs s1, phase rnd dist thr objects cands s M pairs s1 /\
    (pairs = [] -> s' = s1 /\ out = (cands, [], objects)) /\
    (pairs <> [] -> apply_matches thr M objects cands p pairs
       (not_in_idxs (map fst pairs) 0 cands) [] (not_in_idxs (map snd pairs) 0 objects) s1 = (s', Ret out)).
Proof.
  intros Hr. unfold update_objects_in_place. destruct cands as [|c0 cands0].
  { intros E. injection E as <- <-. exists [], [], s. split; [|split; [auto|congruence]].
    constructor; try congruence; auto. - reflexivity. - apply final_nil. - apply min_frame_refl. }
  set (cands := c0 :: cands0). assert (Hne : cands <> []) by discriminate. clearbody cands.
  destruct (get_distances rnd dist s objects cands) as [M|e] eqn:EM; [|discriminate].
  destruct (existsb dis_nan (List.concat M)) eqn:Enan; [discriminate|].
  set (s1 := if existsb dtruth (List.concat M) then _ else s).
  assert (Hs1 : s1 = (if existsb dtruth (List.concat M) then set_min_distances thr M 0 objects s else s)) by reflexivity.
  assert (H1 : min_frame objects s s1).
  { subst s1. destruct (existsb dtruth _); [apply set_min_distances_frame|apply min_frame_refl]. }
  clearbody s1. pose proof (get_distances_rect _ _ _ _ _ _ EM) as HM.
  destruct (match_dets_and_objs rnd thr M) as [[dis ois]|] eqn:Em; [|discriminate].
  destruct (match_final _ _ _ _ _ _ _ Hr HM Enan Em) as [L Hf].
  intros E. exists M, (combine dis ois), s1.
  split; [constructor; auto; [intros _; split; [exists dis, ois; auto|exact Hs1]|congruence]|].
  rewrite combine_fst, combine_snd by auto.
  destruct dis as [|a dis].
  - injection E as <- <-. split; [auto|]. cbn. congruence.
  - split; [|auto]. destruct ois; [discriminate|]. cbn. congruence.
Qed.

Lemma map_eq_nil_inv {A B} (f : A -> B) l : map f l = [] -> l = [].
Proof. destruct l; [auto|discriminate]. Qed.

Lemma uip_dets rnd dist thr objects rs p (s s' : st) uc mo uo : rnd_ok rnd ->
  update_objects_in_place rnd dist thr objects (map CDet rs) p s = (s', Ret (uc, mo, uo)) ->
  exists M pairs s1, phase rnd dist thr objects (map CDet rs) s M pairs s1 /\
    hits p (map (mk_hit M objects rs) pairs) s1 s' /\
    uc = map CDet (not_in_idxs (map fst pairs) 0 rs) /\
    mo = map (fun q => nth (snd q) objects 0) pairs /\
    uo = not_in_idxs (map snd pairs) 0 objects.
Proof.
  intros Hr E. destruct (uip_phase _ _ _ _ _ _ _ _ _ Hr E) as (M & pairs & s1 & Hph & Hnil & Hcons).
  exists M, pairs, s1. split; [exact Hph|].
  destruct pairs as [|q pairs].
  - destruct (Hnil eq_refl) as [-> Eo]. injection Eo as -> -> ->. cbn. rewrite !not_in_idxs_nil. repeat split; auto. constructor.
  - specialize (Hcons ltac:(discriminate)). apply apply_matches_dets in Hcons; [|apply (ph_final _ _ _ _ _ _ _ _ _ Hph)].
    destruct Hcons as (-> & -> & -> & H). rewrite not_in_idxs_map. auto.
Qed.

(* ---- the re-identification phase ---- *)
(** Effect of [merge] on the surviving object. *)
Record merge_rel (c o o' : tobj) : Prop := {
  mr_conf : o_conf o' = o_conf o;
  mr_hit : o_hit o' = (2 * oc_initial_period (o_conf o))%Z;
  mr_reid : o_reid o' = None;
  mr_last_distance : o_last_distance o' = o_last_distance c;
  mr_min_distance : o_min_distance o' = o_min_distance c;
  mr_last : o_last_det o' = o_last_det c;
  mr_age : o_age o' = o_age o;
  mr_init : o_initializing o' = o_initializing o;
  mr_id : o_id o' = o_id o;
  mr_gid : o_gid o' = o_gid o;
  mr_once : o_once o' = o_once c;
  mr_points : o_point_hits o' = o_point_hits c;
  mr_filter : o_filter o' = o_filter c;
  mr_ct : o_abs_to_rel o' = o_abs_to_rel o;
  mr_past : incl (o_past o') (o_past o ++ o_past c)
}.

Lemma add_pasts_ret i rs : forall (s s' : st) u, add_pasts i rs s = (s', Ret u) ->
  frame i s s' /\ s_count s' = s_count s /\ s_gcount s' = s_gcount s /\
  exists past', s_store s' i = set_past past' (s_store s i) /\ incl past' (o_past (s_store s i) ++ rs).
Proof.
  induction rs as [|r rs IH]; intros s s' u E; cbn in E.
  - injection E as <- _. repeat split; auto using heap_age_refl. exists (o_past (s_store s i)). rewrite set_past_same, app_nil_r. split; [reflexivity|apply incl_refl].
  - destruct (cond_add_past i r s) as [t [u0|e]] eqn:E0; [|discriminate].
    apply cond_add_past_ret in E0 as (past' & h' & Hp & Hh & Hst & [F1 F2 F3 F4] & Hc & Hg).
    apply IH in E as ([G1 G2 G3 G4] & Gc & Gg & past'' & Gst & Gi).
    split; [constructor|split; [congruence|split; [congruence|]]].
    + eapply heap_age_trans; eauto.
    + intros j Hj. rewrite G2, F2; auto.
    + congruence. + congruence.
    + exists past''. rewrite Gst, Hst. split; [reflexivity|].
      rewrite Hst in Gi. cbn in Gi. apply past_step_incl in Hp. intros x Hx. apply Gi in Hx.
      apply in_app_iff in Hx as [Hx|Hx].
      * apply Hp in Hx. apply in_app_iff in Hx as [Hx|[<-|[]]]; apply in_app_iff; [left; auto|right; left; auto].
      * apply in_app_iff. right; right; auto.
Qed.

Lemma merge_ret i j (s s' : st) u : merge i j s = (s', Ret u) ->
  merge_rel (s_store s j) (s_store s i) (s_store s' i) /\ frame i s s' /\
  s_count s' = s_count s /\ s_gcount s' = s_gcount s.
Proof.
  unfold merge. intros E. apply add_pasts_ret in E as ([G1 G2 G3 G4] & Gc & Gg & past' & Gst & Gi).
  cbn -[upd] in *. rewrite upd_same in Gst, Gi. split; [|split; [|split; auto]].
  - rewrite Gst. constructor; try reflexivity; [apply Z.mul_comm|exact Gi].
  - constructor; auto. intros k Hk. rewrite G2 by auto. apply upd_other; auto.
Qed.

(** Sequences of merges: (surviving object, merged candidate object, distance). *)
Inductive merges : list (nat * nat * dval N) -> st -> st -> Prop :=
| merges_nil s : merges [] s s
| merges_cons i j dist l s s1 s' u : merge i j s = (s1, Ret u) -> In j (s_tracked s1) ->
    merges l (s_set_tracked (remove_first j (s_tracked s1)) s1) s' ->
    merges ((i, j, dist) :: l) s s'.

Lemma apply_matches_objs thr M objects js p pairs : forall uc mo uo s s' out,
  below (entry M) thr pairs ->
  apply_matches thr M objects (map CObj js) p pairs uc mo uo s = (s', Ret out) ->
  merges (map (mk_hit M objects js) pairs) s s'.
Proof.
  induction pairs as [|[ci oi] pairs IH]; intros uc mo uo s s' out Hb E; cbn in E.
  - injection E as <- _. constructor.
  - destruct (nth_error (map CObj js) ci) as [c|] eqn:Ec; [|discriminate].
    destruct (nth_error objects oi) as [i|] eqn:Ei; [|discriminate].
    assert (Hlt : dltb (entry M ci oi) thr = true) by (apply Hb; left; reflexivity).
    rewrite Hlt in E. rewrite nth_error_map in Ec. destruct (nth_error js ci) as [j|] eqn:Ej; [|discriminate].
    injection Ec as <-. destruct (merge i j s) as [s1 [u|e]] eqn:Eh; [|discriminate].
    destruct (existsb (Nat.eqb j) (s_tracked s1)) eqn:Et; [|discriminate].
    apply IH in E; [|intros a b Hab; apply Hb; right; auto].
    cbn. unfold mk_hit at 1. cbn. rewrite (nth_error_nth _ _ _ Ei), (nth_error_nth _ _ _ Ej).
    econstructor; eauto. apply existsb_exists in Et as (x & Hx & E'). apply Nat.eqb_eq in E'. subst; auto.
Qed.

Lemma uip_objs rnd dist thr objects js p (s s' : st) out : rnd_ok rnd ->
  update_objects_in_place rnd dist thr objects (map CObj js) p s = (s', Ret out) ->
  exists M pairs s1, phase rnd dist thr objects (map CObj js) s M pairs s1 /\
    merges (map (mk_hit M objects js) pairs) s1 s'.
Proof.
  intros Hr E. destruct (uip_phase _ _ _ _ _ _ _ _ _ Hr E) as (M & pairs & s1 & Hph & Hnil & Hcons).
  exists M, pairs, s1. split; [exact Hph|].
  destruct pairs as [|q pairs].
  - destruct (Hnil eq_refl) as [-> _]. constructor.
  - specialize (Hcons ltac:(discriminate)). apply apply_matches_objs in Hcons; [|apply (ph_final _ _ _ _ _ _ _ _ _ Hph)]. auto.
Qed.

Definition remove_all (js l : list nat) : list nat := filter (fun i => negb (existsb (Nat.eqb i) js)) l.

Lemma remove_first_filter j l : NoDup l -> remove_first j l = filter (fun i => negb (Nat.eqb i j)) l.
Proof.
  induction 1 as [|x l Hx Hnd IH]; cbn; auto. destruct (Nat.eqb_spec x j) as [->|Hne]; cbn; [|rewrite IH; auto].
  clear -Hx. induction l as [|y l IH]; cbn; auto. destruct (Nat.eqb_spec y j) as [->|Hne]; cbn.
  - exfalso. apply Hx. left; auto. - f_equal. apply IH. intros C; apply Hx; right; auto.
Qed.

Record merges_frame (l : list (nat * nat * dval N)) (s s' : st) : Prop := {
  gf_heap : heap_age (s_heap s) (s_heap s');
  gf_merge : forall i j dist, In (i, j, dist) l -> merge_rel (s_store s j) (s_store s i) (s_store s' i);
  gf_other : forall i, ~ In i (map h_obj l) -> s_store s' i = s_store s i;
  gf_tracked : s_tracked s' = remove_all (map h_det l) (s_tracked s);
  gf_in : incl (map h_det l) (s_tracked s);
  gf_icount : s_icount s' = s_icount s;
  gf_count : s_count s' = s_count s;
  gf_gcount : s_gcount s' = s_gcount s
}.

Lemma filter_true {A} (f : A -> bool) l : (forall a, In a l -> f a = true) -> filter f l = l.
Proof. induction l as [|a l IH]; intros H; cbn; auto. rewrite (H a) by (left; auto). f_equal. apply IH. intros; apply H; right; auto. Qed.

Lemma merges_effect l s s' : merges l s s' -> NoDup (map h_obj l) -> NoDup (s_tracked s) ->
  (forall i, In i (map h_obj l) -> ~ In i (map h_det l)) -> merges_frame l s s'.
Proof.
  induction 1 as [s|i j dist l s s1 s' u Hm Hin Hl IH]; intros Hnd Htr Hdis.
  - constructor; auto using heap_age_refl. + intros ? ? ? []. + unfold remove_all. cbn. rewrite filter_true; auto. + intros ? [].
  - cbn in Hnd. inversion Hnd as [|? ? Hni Hnd']; subst.
    apply merge_ret in Hm as (Hmr & [F1 F2 F3 F4] & Fc & Fg).
    destruct IH as [A B C D E F G H]; auto.
    { cbn. apply remove_first_NoDup. rewrite F3; auto. }
    { intros k Hk Hk'. apply (Hdis k); right; auto. }
    cbn in *. constructor.
    + eapply heap_age_trans; eauto.
    + intros i0 j0 d0 [E0|Hi0].
      * injection E0 as <- <- <-. rewrite C by auto. auto.
      * assert (N1 : i0 <> i). { intros ->. apply Hni. apply in_map_iff. exists (i, j0, d0); auto. }
        assert (N2 : j0 <> i). { intros ->. apply (Hdis i); [left; auto|]. right. apply in_map_iff. exists (i0, i, d0); auto. }
        specialize (B _ _ _ Hi0). rewrite (F2 _ N1), (F2 _ N2) in B. auto.
    + intros k Hk. cbn in Hk. rewrite C by tauto. apply F2. intros ->; apply Hk; left; auto.
    + rewrite D, F3. rewrite remove_first_filter by auto. unfold remove_all. rewrite filter_filter || idtac.
      cbn. clear. induction (s_tracked s) as [|x l0 IH]; cbn; auto.
      unfold h_det at 3. cbn. destruct (Nat.eqb x j); cbn; auto. destruct (existsb _ _); cbn; rewrite IH; auto.
    + rewrite F3 in *. intros k [<-|Hk]; auto. apply E in Hk. eapply remove_first_incl; eauto.
    + congruence. + congruence. + congruence.
Qed.

(* ---- creation ---- *)
(** The object created from detection [r]. *)
Record new_rel (c : tconf FO) (h : nat -> det) (r : nat) (p : Z) (ct : option (coord_transformation N)) (iid : nat)
    (o : tobj) : Prop := {
  nr_conf : o_conf o = MkOconf iid (List.length (d_absolute_points (h r)))
     (match d_absolute_points (h r) with [] => 0 | x :: _ => List.length x end)
     (tc_hit_counter_max c) (Z.max (tc_pointwise_max c) p) (tc_delay c) (tc_det_thr c) p
     (tc_reid_max c) (tc_past_len c) (d_label (h r));
  nr_hit : o_hit o = p;
  nr_reid : o_reid o = None;
  nr_last_distance : o_last_distance o = None;
  nr_min_distance : o_min_distance o = None;
  nr_last : o_last_det o = r;
  nr_age : o_age o = 0%Z;
  nr_init : o_initializing o = (p <=? tc_delay c)%Z;
  nr_once : o_once o = over_threshold (tc_det_thr c) (List.length (d_absolute_points (h r))) (h r);
  nr_points : o_point_hits o = map (fun b : bool => if b then 1%Z else 0%Z) (o_once o);
  nr_past : o_past o = if Nat.ltb 0 (tc_past_len c) then [r] else [];
  nr_filter : o_filter o = f_create FO (d_absolute_points (h r));
  nr_ct : o_abs_to_rel o = match ct with None => None | Some T => Some (ct_abs_to_rel T) end
}.

Record creates_frame (c : tconf FO) (rs : list nat) (p : Z) (ct : option (coord_transformation N)) (s s' : st) : Prop := {
  cf_heap : heap_age (s_heap s) (s_heap s');
  cf_new : forall k, k < List.length rs ->
     new_rel c (s_heap s) (nth k rs 0) p ct (S (s_icount s) + k) (s_store s' (S (s_icount s) + k));
  cf_old : forall i, i <= s_icount s -> s_store s' i = s_store s i;
  cf_tracked : s_tracked s' = s_tracked s ++ seq (S (s_icount s)) (List.length rs);
  cf_icount : s_icount s' = s_icount s + List.length rs
}.

Lemma new_rel_same_age c h h' r p ct iid o : same_age (h r) (h' r) -> new_rel c h r p ct iid o -> new_rel c h' r p ct iid o.
Proof.
  intros (A1 & A2 & A3 & A4 & A5) [H1 H2 H3 H4 H5 H6 H7 H8 H9 H10 H11 H12 H13].
  rewrite ?A5, ?A3 in *. rewrite (over_threshold_same _ _ _ _ A2) in H9. constructor; auto.
Qed.

Lemma create_object_effect c r p ct (s : st) : creates_frame c [r] p ct s (create_object c r p ct s).
Proof.
  constructor.
  - unfold create_object. cbv zeta. destruct (p <=? tc_delay c)%Z; cbn; apply heap_age_upd.
  - intros k Hk. cbn in Hk. assert (k = 0) as -> by lia. rewrite Nat.add_0_r. cbn [nth].
    unfold create_object. cbv zeta. destruct (p <=? tc_delay c)%Z eqn:E; cbn -[upd]; rewrite ?upd_same; constructor; cbn; auto.
  - intros i Hi. unfold create_object. cbv zeta. destruct (p <=? tc_delay c)%Z; cbn -[upd]; rewrite ?upd_other by lia; reflexivity.
  - unfold create_object. cbv zeta. destruct (p <=? tc_delay c)%Z; reflexivity.
  - unfold create_object. cbv zeta. destruct (p <=? tc_delay c)%Z; cbn; lia.
Qed.

Lemma create_objects_ret c rs p ct : forall (s s' : st) u,
  create_objects c (map CDet rs) p ct s = (s', Ret u) -> creates_frame c rs p ct s s'.
Proof.
  induction rs as [|r rs IH]; intros s s' u E; cbn in E.
  - injection E as <- _. constructor; cbn; auto using heap_age_refl.
    + intros k Hk. lia. + rewrite app_nil_r. auto.
  - apply IH in E. destruct E as [A B C D E]. destruct (create_object_effect c r p ct s) as [A' B' C' D' E'].
    cbn [List.length] in *. rewrite E', Nat.add_1_r in *. constructor.
    + eapply heap_age_trans; eauto.
    + intros [|k] Hk.
      * rewrite Nat.add_0_r. rewrite C by lia. specialize (B' 0 ltac:(lia)). rewrite Nat.add_0_r in B'. exact B'.
      * cbn [nth]. replace (S (s_icount s) + S k) with (S (S (s_icount s)) + k) by lia.
        eapply new_rel_same_age; [apply same_age_sym; apply A'|]. apply B. cbn in Hk. lia.
    + intros i Hi. rewrite C by lia. apply C'. lia.
    + rewrite D, D'. rewrite <- app_assoc. cbn. reflexivity.
    + rewrite E. cbn. lia.
Qed.

(* ---- the step of the kept objects ---- *)
Lemma step_objects_effect ct objs : forall (s : st), NoDup objs ->
  (forall i, In i objs -> s_store (step_objects ct objs s) i = obj_update_ct ct (tracker_step (s_store s i))) /\
  (forall i, ~ In i objs -> s_store (step_objects ct objs s) i = s_store s i) /\
  s_heap (step_objects ct objs s) = s_heap s /\ s_tracked (step_objects ct objs s) = s_tracked s /\
  s_icount (step_objects ct objs s) = s_icount s /\ s_count (step_objects ct objs s) = s_count s /\
  s_gcount (step_objects ct objs s) = s_gcount s.
Proof.
  induction objs as [|i objs IH]; intros s Hnd; cbn [step_objects].
  - repeat split; auto. intros ? [].
  - inversion Hnd as [|? ? Hni Hnd']; subst.
    match goal with |- context [step_objects ct objs ?x] => destruct (IH x Hnd') as (A & B & C); clear IH end.
    split; [|split; [|exact C]].
    + intros k [<-|Hk].
      * rewrite B by auto. cbn. apply upd_same.
      * rewrite A by auto. cbn. rewrite upd_other; auto. intros ->; auto.
    + intros k Hk. rewrite B by (intros X; apply Hk; right; auto). cbn. apply upd_other. intros ->; apply Hk; left; auto.
Qed.

Lemma update_dets_ct_frame T dets : forall (s : st),
  s_store (update_dets_ct T dets s) = s_store s /\ s_tracked (update_dets_ct T dets s) = s_tracked s /\
  s_icount (update_dets_ct T dets s) = s_icount s /\ s_count (update_dets_ct T dets s) = s_count s /\
  s_gcount (update_dets_ct T dets s) = s_gcount s.
Proof.
  induction dets as [|r dets IH]; intros s; cbn; auto.
  match goal with |- context [update_dets_ct T dets ?x] => destruct (IH x) as (A & B & C & D & E) end.
  auto.
Qed.

(** The heap after the coordinate transformation of the detections (tracker.py:179-181). *)
Definition ct_heap (ct : option (coord_transformation N)) (dets : list nat) (s : st) : nat -> det :=
  match ct with None => s_heap s | Some T => s_heap (update_dets_ct T dets s) end.

(** Kept objects, and the objects with non-negative / negative hit counter among them. *)
Definition kept (c : tconf FO) (s : st) : list nat :=
  filter (fun i => match tc_reid_max c with
                   | None => hit_counter_is_positive (s_store s i)
                   | Some _ => reid_hit_counter_is_positive (s_store s i) end) (s_tracked s).
Definition alive (c : tconf FO) (s : st) : list nat := filter (fun i => hit_counter_is_positive (s_store s i)) (kept c s).
Definition dead (c : tconf FO) (s : st) : list nat := filter (fun i => negb (hit_counter_is_positive (s_store s i))) (kept c s).

(** The state in which the association starts. *)
Record stepped (c : tconf FO) (dets : list nat) (ct : option (coord_transformation N)) (s s0 : st) : Prop := {
  sp_heap : s_heap s0 = ct_heap ct dets s;
  sp_step : forall i, In i (kept c s) -> s_store s0 i = obj_update_ct ct (tracker_step (s_store s i));
  sp_other : forall i, ~ In i (kept c s) -> s_store s0 i = s_store s i;
  sp_tracked : s_tracked s0 = kept c s;
  sp_icount : s_icount s0 = s_icount s;
  sp_count : s_count s0 = s_count s;
  sp_gcount : s_gcount s0 = s_gcount s
}.

Lemma prune_eq c (s : st) : prune c s = (kept c s, alive c s, dead c s).
Proof.
  pose proof (prune_spec c s) as H. destruct (prune c s) as [[a b] d]. destruct H as (-> & -> & ->). reflexivity.
Qed.

Lemma begin_update_effect c dets ct (s : st) al de s0 : NoDup (s_tracked s) ->
  begin_update c dets ct s = (al, de, s0) -> al = alive c s /\ de = dead c s /\ stepped c dets ct s s0.
Proof.
  intros Hnd. unfold begin_update.
  set (sa := match ct with None => s | Some T => update_dets_ct T dets s end).
  assert (Ha : s_store sa = s_store s /\ s_tracked sa = s_tracked s /\ s_icount sa = s_icount s /\ s_count sa = s_count s
    /\ s_gcount sa = s_gcount s /\ s_heap sa = ct_heap ct dets s).
  { subst sa. unfold ct_heap. destruct ct as [T|]; [|repeat split; auto].
    destruct (update_dets_ct_frame T dets s) as (A & B & C & D & E). repeat split; auto. }
  clearbody sa. destruct Ha as (A & B & C & D & E & F).
  rewrite prune_eq.
  assert (K : kept c sa = kept c s) by (unfold kept; rewrite A, B; reflexivity).
  assert (K2 : alive c sa = alive c s) by (unfold alive; rewrite A, K; reflexivity).
  assert (K3 : dead c sa = dead c s) by (unfold dead; rewrite A, K; reflexivity).
  rewrite K, K2, K3. intros X. injection X as <- <- <-. split; [auto|split; [auto|]].
  destruct (step_objects_effect ct (kept c s) (s_set_tracked (kept c s) sa)) as (S1 & S2 & S3 & S4 & S5 & S6 & S7).
  { apply NoDup_filter; auto. }
  constructor.
  - rewrite S3. cbn. auto.
  - intros i Hi. rewrite S1 by auto. cbn. rewrite A. reflexivity.
  - intros i Hi. rewrite S2 by auto. cbn. rewrite A. reflexivity.
  - rewrite S4. reflexivity.
  - rewrite S5. exact C.
  - rewrite S6. exact D.
  - rewrite S7. exact E.
Qed.

End Effect.

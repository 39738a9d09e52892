(** C86: well-formed calls return. *)
From Coq Require Import ZArith Bool Lia List Arith Permutation String.
From Verif Require Import Model.Num Model.Base Model.Matching Model.Filter Model.Tracker Spec.MatchingSpec.
From Verif Require Import Proofs.NumLaws Proofs.MatchingProofs Proofs.TrackerFrame Proofs.Identity Proofs.Effect Proofs.CallEffect Proofs.CallProps
  Proofs.PointProofs Proofs.ReplayProofs Proofs.LabelVector.
From Verif Require Import Spec.CallSpec Spec.PointSpec Spec.ExampleVideo Spec.ProgressSpec.
Import ListNotations.
Local Open Scope nat_scope.

Section P.
Context {N : Num} (laws : NumLaws N) {FO : filter_ops N}.
Notation st := (st FO).
Notation tobj := (tobj FO).
Notation det := (detection N).
Variables (n dim : nat) (wf : nat -> fstate FO -> Prop) (R : nat -> Prop).
Hypothesis Hn : 0 < n.
Hypothesis Hdim : 0 < dim.
Hypothesis RG : regular FO wf.

Record obj_ok (h : nat -> det) (o : tobj) : Prop := {
  ok_num : oc_num_points (o_conf o) = n;
  ok_dim : oc_dim_points (o_conf o) = dim;
  ok_hits : List.length (o_point_hits o) = n;
  ok_once : List.length (o_once o) = n;
  ok_filter : wf (dim * n) (o_filter o);
  ok_past : forall r, In r (o_past o) -> R r /\ d_age (h r) <> None;
  ok_last : R (o_last_det o);
  ok_ct : forall f, o_abs_to_rel o = Some f -> forall p, rectangular n dim p -> rectangular n dim (f p)
}.
Record fine (s : st) : Prop := {
  fi_heap : forall r, R r -> det_shape n dim (s_heap s r);
  fi_objs : forall i, tracked s i -> obj_ok (s_heap s) (s_store s i);
  fi_nodup : NoDup (s_tracked s);
  fi_known : forall i, tracked s i -> i <= s_icount s
}.

Definition later (h h' : nat -> det) : Prop := heap_age h h' /\ forall r, d_age (h r) <> None -> d_age (h' r) <> None.
Lemma later_refl h : later h h.
Proof. split; auto using heap_age_refl. Qed.
Lemma later_trans a b c : later a b -> later b c -> later a c.
Proof. intros [A B] [C D]. split; [eapply heap_age_trans; eauto|auto]. Qed.
Lemma later_upd h r a : later h (upd h r (d_set_age a (h r))).
Proof.
  split; [apply heap_age_upd|]. intros q Hq. unfold upd. destruct (Nat.eqb_spec q r) as [->|]; [discriminate|exact Hq].
Qed.
Lemma shape_later h h' r : later h h' -> det_shape n dim (h r) -> det_shape n dim (h' r).
Proof.
  intros [A _] (B & C & D). destruct (A r) as (A1 & A2 & A3 & A4 & A5). unfold det_shape. rewrite <- A1, <- A2, <- A5. auto.
Qed.
Lemma ok_later h h' o : later h h' -> obj_ok h o -> obj_ok h' o.
Proof.
  intros [_ L] [A1 A2 A3 A4 A5 A6 A7 A8]. constructor; auto. intros r Hr. destruct (A6 r Hr) as [B C]. auto.
Qed.

(* ---- past detections ---- *)
Definition past_ok (h : nat -> det) (l : list nat) : Prop := forall q, In q l -> R q /\ d_age (h q) <> None.
Lemma past_step_ok h (o : tobj) r past' h' : past_step h o r past' h' -> R r -> past_ok h (o_past o) -> later h h' /\ past_ok h' past'.
Proof.
  intros P Hr Hp. assert (L : later h h') by (destruct P; try apply later_refl; apply later_upd). split; [exact L|].
  assert (Hr' : forall a, d_age (upd h r (d_set_age a (h r)) r) <> None) by (intros a; rewrite upd_same; discriminate).
  assert (Hold : past_ok h' (o_past o)).
  { intros q Hq. destruct (Hp q Hq). split; auto. apply L. auto. }
  destruct P as [| |q0 rest a A B C D F|]; auto.
  - intros q Hq. apply in_app_iff in Hq as [Hq|[<-|[]]]; auto.
  - intros q Hq. apply in_app_iff in Hq as [Hq|[<-|[]]]; auto. apply Hold. rewrite C. right. auto.
Qed.
Lemma cond_add_past_returns i r (s : st) : R r -> past_ok (s_heap s) (o_past (s_store s i)) ->
  exists s', cond_add_past i r s = (s', Ret tt) /\ later (s_heap s) (s_heap s') /\ past_ok (s_heap s') (o_past (s_store s' i)).
Proof.
  intros Hr Hp. assert (X : exists s', cond_add_past i r s = (s', Ret tt)).
  { unfold cond_add_past. cbv zeta. set (o := s_store s i) in *. destruct (Nat.eqb_spec (oc_past_len (o_conf o)) 0) as [E|E]; [eauto|].
    destruct (Nat.ltb_spec (List.length (o_past o)) (oc_past_len (o_conf o))) as [L|L]; [eauto|].
    destruct (o_past o) as [|q0 rest]; [cbn in L; lia|]. destruct (Hp q0 (or_introl eq_refl)) as [_ A].
    destruct (d_age (s_heap s q0)); [|congruence]. destruct (_ <=? _)%Z; eauto. }
  destruct X as [s' E]. exists s'. split; [exact E|].
  apply cond_add_past_ret in E as (past' & h' & P & <- & Es & _). rewrite Es. cbn [o_past set_past]. eapply past_step_ok; eauto.
Qed.
Lemma add_pasts_returns i rs : forall (s : st), (forall r, In r rs -> R r) -> past_ok (s_heap s) (o_past (s_store s i)) ->
  exists s', add_pasts i rs s = (s', Ret tt) /\ later (s_heap s) (s_heap s') /\ past_ok (s_heap s') (o_past (s_store s' i)).
Proof.
  induction rs as [|r rs IH]; intros s Hr Hp; cbn.
  - exists s. auto using later_refl.
  - destruct (cond_add_past_returns i r s (Hr r (or_introl eq_refl)) Hp) as (s1 & -> & L1 & P1).
    destruct (IH s1 (fun q Hq => Hr q (or_intror Hq)) P1) as (s2 & E & L2 & P2). exists s2. split; [exact E|].
    split; [eapply later_trans; eauto|auto].
Qed.

(* ---- hit ---- *)
Lemma mask_len (d : det) thr : det_shape n dim d -> List.length (over_threshold thr n d) = n.
Proof. intros (_ & _ & A). unfold over_threshold. destruct (d_scores d); [rewrite map_length; auto|apply repeat_length]. Qed.
Lemma hit_returns i r p (s : st) : fine s -> tracked s i -> R r -> exists s', hit i r p s = (s', Ret tt).
Proof.
  intros F Ti Hr. pose proof (fi_objs _ F i Ti) as O. unfold hit.
  destruct (cond_add_past_returns i r s Hr (ok_past _ _ O)) as (t & E0 & L & _). rewrite E0.
  apply cond_add_past_ret in E0 as (past' & h' & Hp & Hh & Hst & Hfr & Hc & Hg). cbv zeta.
  set (s2 := mod_obj i (fun o => set_hit _ o) (mod_obj i (set_last_det r) t)).
  set (s3 := if o_initializing (s_store s2 i) && _ then _ else s2).
  assert (D : det_shape n dim (s_heap s3 r)).
  { replace (s_heap s3) with (s_heap t); [eapply shape_later; [exact L|apply F; auto]|]. subst s3. destruct (_ && _); reflexivity. }
  assert (X : o_conf (s_store s3 i) = o_conf (s_store s i) /\ o_point_hits (s_store s3 i) = o_point_hits (s_store s i) /\ o_once (s_store s3 i) = o_once (s_store s i)).
  { subst s3. destruct (_ && _); [unfold acquire_ids|]; cbn -[upd]; rewrite !upd_same, ?Hst; auto. }
  clearbody s3. destruct X as (X1 & X2 & X3). rewrite X1, X2. destruct O as [O1 O2 O3 O4 O5 O6 O7 O8]. rewrite O1, O2, O3.
  set (mask := over_threshold _ n (s_heap s3 r)). assert (Lm : List.length mask = n) by (apply mask_len; auto).
  replace (List.length (match d_scores (s_heap s3 r) with Some _ => mask | None => repeat true n end)) with n
    by (destruct (d_scores _); [auto|rewrite repeat_length; auto]).
  unfold dim_z. rewrite X1, O1, O2, X3, O4, Lm. rewrite (flatten_length n dim) by apply D. rewrite !Nat.eqb_refl. cbn [negb orb].
  eauto.
Qed.
Lemma points_len p m mask l : List.length mask = List.length l -> List.length (point_hits_update p m mask l) = List.length l.
Proof. intros E. unfold point_hits_update, map2. rewrite !map_length, combine_length, E. apply Nat.min_id. Qed.
Lemma hit_ok h (d : det) r p (o o' : tobj) h' : det_shape n dim d -> obj_ok h o -> hit_rel d r p o o' -> R r -> later h h' -> past_ok h' (o_past o') -> obj_ok h' o'.
Proof.
  intros D [O1 O2 O3 O4 O5 O6 O7 O8] H Hr L P. constructor.
  - rewrite (hr_conf _ _ _ _ _ H). auto.
  - rewrite (hr_conf _ _ _ _ _ H). auto.
  - rewrite (hr_points _ _ _ _ _ H), points_len; auto. rewrite O1. destruct (d_scores d); [rewrite O3; apply mask_len; auto|rewrite repeat_length; auto].
  - rewrite (hr_once _ _ _ _ _ H). unfold map2. rewrite map_length, combine_length, O4, O1, mask_len by auto. apply Nat.min_id.
  - pose proof (fits_hit wf d r p o o' RG) as X. unfold fits, dim_z in X. rewrite (hr_conf _ _ _ _ _ H), O1, O2 in X. auto.
  - exact P.
  - rewrite (hr_last _ _ _ _ _ H). auto.
  - rewrite (hr_ct _ _ _ _ _ H). auto.
Qed.
Lemma hit_fine i r p (s : st) : fine s -> tracked s i -> R r -> exists s', hit i r p s = (s', Ret tt) /\ fine s' /\ s_tracked s' = s_tracked s.
Proof.
  intros F Ti Hr. destruct (hit_returns i r p s F Ti Hr) as [s' E]. exists s'. split; [exact E|].
  apply hit_ret in E as (past' & h' & P & <- & H & <- & [A B C D] & _). split; [|exact C].
  destruct (past_step_ok _ _ _ _ _ P Hr (ok_past _ _ (fi_objs _ F i Ti))) as [L Pk]. constructor.
  - intros q Hq. eapply shape_later; [exact L|]. apply F, Hq.
  - intros j Tj. unfold tracked in Tj. rewrite C in Tj. destruct (Nat.eq_dec j i) as [->|Nj].
    + eapply hit_ok; [apply (fi_heap _ F r Hr)|apply (fi_objs _ F i Ti)|exact H|exact Hr|exact L|exact Pk].
    + rewrite B by auto. eapply ok_later; [exact L|]. apply F, Tj.
  - rewrite C. apply F.
  - intros j Tj. unfold tracked in Tj. rewrite C in Tj. rewrite D. apply F, Tj.
Qed.
Lemma merge_fine i j (s : st) : fine s -> tracked s i -> tracked s j -> exists s', merge i j s = (s', Ret tt) /\ fine s' /\ s_tracked s' = s_tracked s.
Proof.
  intros F Ti Tj. pose proof (fi_objs _ F i Ti) as Oi. pose proof (fi_objs _ F j Tj) as Oj.
  assert (X : exists s', merge i j s = (s', Ret tt) /\ later (s_heap s) (s_heap s') /\ past_ok (s_heap s') (o_past (s_store s' i))).
  { unfold merge. match goal with |- context [add_pasts i ?rs ?s0] => apply (add_pasts_returns i rs s0) end; cbn -[upd].
    - intros r Hr. apply (ok_past _ _ Oj r Hr).
    - rewrite upd_same. cbn. exact (ok_past _ _ Oi). }
  destruct X as (s' & E & L & Pk). exists s'. split; [exact E|]. apply merge_ret in E as (M & [A B C D] & _). split; [|exact C]. constructor.
  - intros q Hq. eapply shape_later; [exact L|]. apply F, Hq.
  - intros k Tk. unfold tracked in Tk. rewrite C in Tk. destruct (Nat.eq_dec k i) as [->|Nk].
    + destruct Oi as [O1 O2 O3 O4 O5 O6 O7 O8], Oj as [P1 P2 P3 P4 P5 P6 P7 P8]. destruct M. constructor; rewrite ?mr_conf, ?mr_points, ?mr_once, ?mr_filter, ?mr_last, ?mr_ct; auto.
    + rewrite B by auto. eapply ok_later; [exact L|]. apply F, Tk.
  - rewrite C. apply F.
  - intros k Tk. unfold tracked in Tk. rewrite C in Tk. rewrite D. apply F, Tk.
Qed.
Lemma fine_set i (g : tobj -> tobj) (s : st) : (forall h o, obj_ok h o -> obj_ok h (g o)) -> fine s -> fine (mod_obj i g s).
Proof.
  intros G [A B C D]. constructor; cbn -[upd]; auto. intros j Tj. change (tracked s j) in Tj. unfold upd. destruct (Nat.eqb_spec j i) as [->|]; auto.
Qed.
Lemma set_last_distance_ok h o d : obj_ok h o -> obj_ok h (set_last_distance d o).
Proof. intros []; constructor; auto. Qed.
Lemma set_min_distance_ok h o d : obj_ok h o -> obj_ok h (set_min_distance d o).
Proof. intros []; constructor; auto. Qed.
Lemma set_min_distances_fine thr M objects : forall j (s : st), fine s -> fine (set_min_distances thr M j objects s).
Proof.
  induction objects as [|i objects IH]; intros j s F; cbn; auto. apply IH. apply fine_set; auto. intros. apply set_min_distance_ok; auto.
Qed.
Lemma fine_remove j (s : st) : fine s -> fine (s_set_tracked (remove_first j (s_tracked s)) s).
Proof.
  intros [A B C D]. constructor; cbn; auto.
  - intros i Ti. apply B. eapply remove_first_incl; eauto.
  - apply remove_first_NoDup. auto.
  - intros i Ti. apply D. eapply remove_first_incl; eauto.
Qed.

(* ---- the distances ---- *)
Lemma estimate_shape h (o : tobj) : obj_ok h o -> rectangular n dim (estimate o).
Proof.
  intros [O1 O2 O3 O4 O5 O6 O7 O8]. unfold estimate, get_estimate. unfold dim_z. rewrite O1, O2.
  assert (X : rectangular n dim (reshape_rows dim (firstn (dim * n) (f_x FO (o_filter o))))).
  { apply rows_flatten; auto. rewrite firstn_length, (rg_x _ RG _ _ O5). lia. }
  destruct (o_abs_to_rel o) as [f|] eqn:E; [exact (O8 f eq_refl _ X)|exact X].
Qed.
Lemma view_ok (s : st) i : fine s -> tracked s i -> view_shape n dim (view_obj s i).
Proof.
  intros F Ti. pose proof (fi_objs _ F i Ti) as O. split; [|split]; cbn.
  - eapply estimate_shape; eauto.
  - apply (fi_heap _ F), (ok_last _ _ O).
  - apply Forall_forall. intros d Hd. apply in_map_iff in Hd as (r & <- & Hr). apply F. apply (ok_past _ _ O r Hr).
Qed.
Definition cand_ok (s : st) (c : cand) : Prop := match c with CDet r => R r | CObj j => tracked s j end.

Lemma map_result_total {A B} (f : A -> result B) (Q : B -> Prop) l : (forall a, In a l -> exists b, f a = Ret b /\ Q b) ->
  exists bs, map_result f l = Ret bs /\ Forall Q bs.
Proof.
  induction l as [|a l IH]; intros H; cbn; [eauto|]. destruct (H a (or_introl eq_refl)) as (b & -> & Qb).
  destruct IH as (bs & -> & Qs); [intros; apply H; right; auto|]. eauto.
Qed.
Definition num (x : dval N) : Prop := dis_nan x = false.
Lemma nan_free_num (M : matrix N) : nan_free M <-> Forall (Forall num) M.
Proof.
  unfold nan_free. rewrite <- not_true_iff_false, existsb_exists, Forall_forall. split.
  - intros H row Hr. apply Forall_forall. intros x Hx. unfold num. destruct (dis_nan x) eqn:E; auto. exfalso. apply H. exists x. split; auto. apply in_concat. eauto.
  - intros H (x & Hx & E). apply in_concat in Hx as (row & Hr & Hx). specialize (H row Hr). rewrite Forall_forall in H. specialize (H x Hx). unfold num in H. congruence.
Qed.
Lemma not_nan_num (x : dval N) : x <> DNaN -> num x.
Proof. destruct x; [congruence|reflexivity..]. Qed.
Lemma flat_len (p : points N) : rectangular n dim p -> List.length (flatten p) = dim * n.
Proof. intros [A B]. rewrite <- A. clear A. unfold flatten. induction p as [|x p IH]; cbn; [lia|]. inversion B; subst. rewrite app_length, IH by auto. lia. Qed.

Lemma scalar_total rnd f (s : st) objects cands : (forall x : dval N, dis_nan (rnd x) = dis_nan x) ->
  (forall c i, In c cands -> In i objects -> exists x, f (view_cand s c) (view_obj s i) = Ret x /\ x <> DNaN) ->
  exists M, scalar_distances rnd f s objects cands = Ret M /\ nan_free M.
Proof.
  intros Hr H. unfold scalar_distances. setoid_rewrite nan_free_num. apply map_result_total. intros c Hc. apply map_result_total. intros i Hi.
  destruct (negb _); [exists DPInf; split; reflexivity|]. destruct (H c i Hc Hi) as (x & -> & Nx). exists (rnd x). split; auto. unfold num. rewrite Hr. apply not_nan_num. auto.
Qed.

Lemma assign_row_num mask : forall drow row, Forall num drow -> Forall num row -> Forall num (assign_row mask drow row).
Proof.
  induction mask as [|b mask IH]; intros drow row A B; [exact B|]. destruct row as [|x row]; [destruct b; exact B|]. inversion B; subst.
  destruct b; cbn; [|constructor; auto]. destruct drow as [|v drow]; [constructor; auto|]. inversion A; subst. constructor; auto.
Qed.
Lemma assign_rows_num cm om : forall D M, Forall (Forall num) D -> Forall (Forall num) M -> Forall (Forall num) (assign_rows cm om D M).
Proof.
  induction cm as [|b cm IH]; intros D M A B; [exact B|]. destruct M as [|x M]; [destruct b; exact B|]. inversion B; subst.
  destruct b; cbn; [|constructor; auto]. destruct D as [|v D]; [constructor; auto|]. inversion A; subst. constructor; auto using assign_row_num.
Qed.
Lemma stack_total (l : list (list N)) k : l <> [] -> Forall (fun v => List.length v = k) l -> stack l = Ret l.
Proof.
  intros Hl F. unfold stack. destruct l as [|v l]; [congruence|]. rewrite Forall_forall in F. replace (forallb _ (v :: l)) with true; [reflexivity|].
  symmetry. apply forallb_forall. intros w Hw. apply Nat.eqb_eq. rewrite (F w Hw), (F v (or_introl eq_refl)). reflexivity.
Qed.
Lemma vectorized_total rnd f (s : st) objects cands : (forall x : dval N, dis_nan (rnd x) = dis_nan x) ->
  distance_defined (FO := FO) n dim (VectorizedDistance f) ->
  (forall c, In c cands -> List.length (cand_vector s c) = dim * n) -> (forall i, In i objects -> List.length (flatten (estimate (s_store s i))) = dim * n) ->
  exists M, vectorized_distances rnd f s objects cands = Ret M /\ nan_free M.
Proof.
  intros Hr Hf Hc Ho. unfold vectorized_distances. set (M0 := map (fun _ => map (fun _ => DPInf) objects) cands).
  assert (B0 : Forall (Forall num) (M0 : matrix N)).
  { apply Forall_forall. intros row Hrow. apply in_map_iff in Hrow as (? & <- & _). apply Forall_forall. intros y Hy. apply in_map_iff in Hy as (? & <- & _). reflexivity. }
  assert (K : forall labels, (forall l, In l labels -> In l (map (fun i => label_str (obj_label s i)) objects) /\ In l (map (fun c => label_str (cand_label s c)) cands)) ->
    forall M, Forall (Forall num) M -> exists M', vectorized_loop rnd f s objects cands labels M = Ret M' /\ nan_free M').
  { induction labels as [|l labels IH]; intros Hl M B; cbn [vectorized_loop].
    { exists M. split; [reflexivity|]. apply nan_free_num, B. }
    destruct (Hl l (or_introl eq_refl)) as [H1 H2]. cbv zeta. set (objs := filter _ objects). set (cs := filter _ cands).
    assert (N1 : map (fun i => flatten (estimate (s_store s i))) objs <> []).
    { apply in_map_iff in H1 as (i & E & Hi). assert (X : In i objs) by (apply filter_In; split; [exact Hi|apply String.eqb_eq, E]). destruct objs; [destruct X|discriminate]. }
    assert (N2 : map (cand_vector s) cs <> []).
    { apply in_map_iff in H2 as (i & E & Hi). assert (X : In i cs) by (apply filter_In; split; [exact Hi|apply String.eqb_eq, E]). destruct cs; [destruct X|discriminate]. }
    assert (F1 : Forall (fun v => List.length v = dim * n) (map (fun i => flatten (estimate (s_store s i))) objs)).
    { apply Forall_forall. intros v Hv. apply in_map_iff in Hv as (i & <- & Hi). apply Ho. apply filter_In in Hi. apply Hi. }
    assert (F2 : Forall (fun v => List.length v = dim * n) (map (cand_vector s) cs)).
    { apply Forall_forall. intros v Hv. apply in_map_iff in Hv as (i & <- & Hi). apply Hc. apply filter_In in Hi. apply Hi. }
    rewrite (stack_total _ _ N1 F1), (stack_total _ _ N2 F2). destruct (Hf _ _ N2 N1 F2 F1) as (D & -> & [L1 L2] & Q). rewrite map_length in L1.
    rewrite L1, Nat.eqb_refl. cbn [andb]. replace (forallb _ D) with true.
    - apply IH; [intros; apply Hl; right; auto|]. apply assign_rows_num; [|exact B]. apply nan_free_num in Q. clear - Q Hr. induction Q as [|row D H Q IH]; constructor; auto.
      clear - H Hr. induction H; constructor; auto. unfold num. rewrite Hr. auto.
    - symmetry. apply forallb_forall. intros row Hrow. rewrite Forall_forall in L2. rewrite (L2 row Hrow), map_length. apply Nat.eqb_refl. }
  assert (G : nan_free M0) by (apply nan_free_num, B0).
  destruct objects as [|o objects]; [eauto|]. destruct cands as [|c cands]; [eauto|]. apply K; [|exact B0]. intros l Hl. apply common_labels, Hl.
Qed.

(** A distance that is defined for the candidates of a phase. *)
Definition good_distance (dist : distance FO) (cs : list cand) : Prop :=
  match dist with
  | ScalarDistance f => forall (s : st) c i, fine s -> cand_ok s c -> tracked s i -> In c cs -> exists x, f (view_cand s c) (view_obj s i) = Ret x /\ x <> DNaN
  | VectorizedDistance f => distance_defined (FO := FO) n dim (VectorizedDistance f)
  end.
Lemma get_distances_total rnd dist (s : st) objects cands : (forall x : dval N, dis_nan (rnd x) = dis_nan x) -> good_distance dist cands -> fine s ->
  (forall i, In i objects -> tracked s i) -> (forall c, In c cands -> cand_ok s c) ->
  exists M, get_distances rnd dist s objects cands = Ret M /\ nan_free M.
Proof.
  intros Hr Hd F Ho Hc. destruct dist as [f|f]; cbn [get_distances].
  - apply scalar_total; auto.
  - apply vectorized_total; auto.
    + intros [r|j] H; cbn; apply flat_len.
      * apply (fi_heap _ F r). apply (Hc _ H). * eapply estimate_shape. apply (fi_objs _ F j), (Hc _ H).
    + intros i Hi. apply flat_len. eapply estimate_shape. apply (fi_objs _ F i); auto.
Qed.
Lemma apply_dets thr M objects rs p : forall pairs uc mo uo (s : st), fine s -> (forall i, In i objects -> tracked s i) -> (forall r, In r rs -> R r) ->
  (forall q, In q pairs -> fst q < List.length rs /\ snd q < List.length objects) ->
  exists s' out, apply_matches thr M objects (map CDet rs) p pairs uc mo uo s = (s', Ret out) /\ fine s' /\ s_tracked s' = s_tracked s.
Proof.
  induction pairs as [|[ci oi] pairs IH]; intros uc mo uo s F Ho Hr Hp; cbn [apply_matches]; [eauto|].
  destruct (Hp (ci, oi) (or_introl eq_refl)) as [H1 H2]. cbn in H1, H2. rewrite nth_error_map.
  destruct (nth_error rs ci) as [r|] eqn:E1; [|apply nth_error_None in E1; lia]. destruct (nth_error objects oi) as [i|] eqn:E2; [|apply nth_error_None in E2; lia].
  cbn [option_map]. destruct (dltb _ _); [|apply IH; auto; intros; apply Hp; right; auto].
  destruct (hit_fine i r p s F) as (s' & -> & F' & T'); [apply Ho; eapply nth_error_In; eauto|apply Hr; eapply nth_error_In; eauto|].
  destruct (IH uc (mo ++ [i]) uo (mod_obj i (set_last_distance (Some (entry M ci oi))) s')) as (s'' & out & E & F'' & T''); eauto.
  - apply fine_set; auto. intros. apply set_last_distance_ok. auto.
  - intros j Hj. unfold tracked. cbn. rewrite T'. apply Ho, Hj.
  - intros; apply Hp; right; auto.
  - exists s'', out. split; [exact E|]. split; [exact F''|]. rewrite T''. exact T'.
Qed.
Lemma in_remove_first x y l : In x l -> x <> y -> In x (remove_first y l).
Proof. induction l as [|z l IH]; cbn; [auto|]. intros [E|H] Ne; destruct (Nat.eqb_spec z y); subst; cbn; auto; congruence. Qed.
Lemma apply_objs thr M objects js p : forall pairs uc mo uo (s : st), fine s -> (forall i, In i objects -> tracked s i /\ ~ In i js) -> NoDup js ->
  (forall q, In q pairs -> fst q < List.length js /\ snd q < List.length objects) -> NoDup (map fst pairs) -> (forall q, In q pairs -> tracked s (nth (fst q) js 0)) ->
  exists s' out, apply_matches thr M objects (map CObj js) p pairs uc mo uo s = (s', Ret out) /\ fine s' /\ incl (s_tracked s') (s_tracked s).
Proof.
  induction pairs as [|[ci oi] pairs IH]; intros uc mo uo s F Ho Hj Hp Hnd Ht; cbn [apply_matches].
  { exists s, (uc, mo, uo). split; [reflexivity|]. split; [exact F|apply incl_refl]. }
  destruct (Hp (ci, oi) (or_introl eq_refl)) as [H1 H2]. cbn in H1, H2. rewrite nth_error_map. inversion Hnd as [|? ? Hni Hnd']; subst.
  rewrite (nth_error_nth' js 0) by auto. pose proof (Ht (ci, oi) (or_introl eq_refl)) as Tj. cbn in Tj. set (j := nth ci js 0) in *.
  destruct (nth_error objects oi) as [i|] eqn:E2; [|apply nth_error_None in E2; lia]. apply nth_error_In in E2.
  cbn [option_map]. destruct (dltb _ _); [|apply IH; auto; intros; [apply Hp|apply Ht]; right; auto].
  destruct (merge_fine i j s F) as (s' & -> & F' & T'); [apply Ho; auto|auto|].
  replace (existsb (Nat.eqb j) (s_tracked s')) with true by (symmetry; apply existsb_exists; exists j; split; [rewrite T'; exact Tj|apply Nat.eqb_refl]).
  destruct (IH uc mo uo (s_set_tracked (remove_first j (s_tracked s')) s')) as (s'' & out & E & F'' & T''); auto.
  - apply fine_remove; auto.
  - intros k Hk. destruct (Ho k Hk) as [A B]. split; auto. unfold tracked. cbn. rewrite T'. apply in_remove_first; auto. intros ->. apply B. apply nth_In. auto.
  - intros; apply Hp; right; auto.
  - intros q Hq. unfold tracked. cbn. rewrite T'. apply in_remove_first; [apply Ht; right; auto|]. intros X. apply Hni. replace ci with (fst q); [apply in_map; auto|].
    eapply NoDup_nth; [exact Hj| | |exact X]; auto. apply Hp. right; auto.
  - exists s'', out. split; [exact E|]. split; [exact F''|]. intros k Hk. apply T'' in Hk. cbn in Hk. apply remove_first_incl in Hk. rewrite T' in Hk. exact Hk.
Qed.

(* ---- the phases ---- *)
Lemma uip_total_gen rnd dist thr objects cands p (s : st) (Q : st -> Prop) : (forall x : dval N, dis_nan (rnd x) = dis_nan x) -> ~ dlt (rnd (dsucc thr)) thr ->
  good_distance dist cands -> fine s -> (forall i, In i objects -> tracked s i) -> (forall c, In c cands -> cand_ok s c) ->
  (forall M pairs sa, fine sa -> s_tracked sa = s_tracked s -> final (List.length cands) (List.length objects) thr M pairs -> forall uc uo,
     exists s' out, apply_matches thr M objects cands p pairs uc [] uo sa = (s', Ret out) /\ Q s') ->
  (forall sa, fine sa -> s_tracked sa = s_tracked s -> Q sa) ->
  exists s' out, update_objects_in_place rnd dist thr objects cands p s = (s', Ret out) /\ Q s'.
Proof.
  intros Hr Ht Hd F Ho Hc Ha Hq. unfold update_objects_in_place. destruct cands as [|c0 cands0]; [eauto|].
  set (cands := c0 :: cands0) in *. destruct (get_distances_total rnd dist s objects cands Hr Hd F Ho Hc) as (M & EM & NF). rewrite EM.
  pose proof (get_distances_rect _ _ _ _ _ _ EM) as HM. unfold nan_free in NF. rewrite NF.
  set (s1 := if existsb dtruth (List.concat M) then _ else s).
  assert (F1 : fine s1 /\ s_tracked s1 = s_tracked s).
  { subst s1. destruct (existsb dtruth _); [|auto]. split; [apply set_min_distances_fine; auto|].
    apply (mf_tracked _ _ _ (set_min_distances_frame thr M objects 0 s)). }
  destruct F1 as [F1 T1]. clearbody s1.
  destruct (match_terminates laws rnd _ _ thr M HM NF) as (dis & ois & _ & E & _).
  { rewrite Hr. apply dis_nan_succ. } { unfold dlt in Ht. destruct (dltb _ _); [exfalso; apply Ht|]; reflexivity. }
  rewrite E. destruct (match_final laws rnd _ _ thr M dis ois Hr HM NF E) as [L Hf]. destruct dis as [|a dis].
  - destruct ois; [|discriminate]. eauto.
  - apply Ha; auto.
Qed.
Lemma uip_dets_total rnd dist thr objects rs p (s : st) : (forall x : dval N, dis_nan (rnd x) = dis_nan x) -> ~ dlt (rnd (dsucc thr)) thr ->
  good_distance dist (map CDet rs) -> fine s -> (forall i, In i objects -> tracked s i) -> (forall r, In r rs -> R r) ->
  exists s' out, update_objects_in_place rnd dist thr objects (map CDet rs) p s = (s', Ret out) /\ (fine s' /\ s_tracked s' = s_tracked s).
Proof.
  intros Hr Ht Hd F Ho Hc. apply uip_total_gen; auto.
  - intros c Hin. apply in_map_iff in Hin as (r & <- & Hin). apply Hc, Hin.
  - intros M pairs sa Fa Ta Hf uc uo. rewrite map_length in Hf. destruct (apply_dets thr M objects rs p pairs uc [] uo sa Fa) as (s' & out & E & F' & T').
    + intros i Hi. unfold tracked. rewrite Ta. apply Ho, Hi.
    + exact Hc.
    + intros [a b] Hq. destruct Hf as (_ & Hf & _). apply Hf in Hq. exact Hq.
    + exists s', out. split; [exact E|]. split; [exact F'|congruence].
Qed.
Lemma uip_objs_total rnd dist thr objects js p (s : st) : (forall x : dval N, dis_nan (rnd x) = dis_nan x) -> ~ dlt (rnd (dsucc thr)) thr ->
  good_distance dist (map CObj js) -> fine s -> (forall i, In i objects -> tracked s i /\ ~ In i js) -> NoDup js -> (forall j, In j js -> tracked s j) ->
  exists s' out, update_objects_in_place rnd dist thr objects (map CObj js) p s = (s', Ret out) /\ (fine s' /\ incl (s_tracked s') (s_tracked s)).
Proof.
  intros Hr Ht Hd F Ho Hn' Hj. apply uip_total_gen; auto.
  - intros i Hi. apply Ho, Hi.
  - intros c Hin. apply in_map_iff in Hin as (r & <- & Hin). apply Hj, Hin.
  - intros M pairs sa Fa Ta Hf uc uo. rewrite map_length in Hf.
    assert (Hp : forall q, In q pairs -> fst q < List.length js /\ snd q < List.length objects) by (intros [a b] Hq; destruct Hf as (_ & Hf & _); apply Hf in Hq; exact Hq).
    destruct (apply_objs thr M objects js p pairs uc [] uo sa Fa) as (s' & out & E & F' & T'); auto.
    + intros i Hi. unfold tracked. rewrite Ta. apply Ho, Hi.
    + apply (final_facts _ _ _ _ _ Hf).
    + intros q Hq. unfold tracked. rewrite Ta. apply Hj. apply nth_In. apply Hp, Hq.
    + exists s', out. split; [exact E|]. split; [exact F'|]. rewrite <- Ta. exact T'.
  - intros sa Fa ->. split; [exact Fa|apply incl_refl].
Qed.

(* ---- new objects ---- *)
Lemma rect_dim (p : points N) : rectangular n dim p -> List.length p = n /\ match p with [] => 0 | x :: _ => List.length x end = dim.
Proof. intros [A B]. split; [exact A|]. destruct p as [|x p]; [cbn in A; lia|]. inversion B; auto. Qed.
Lemma create_fine c r p ct (s : st) : fine s -> R r -> (forall T, ct = Some T -> keeps_shape n dim T) -> fine (create_object c r p ct s) /\
  incl (s_tracked s) (s_tracked (create_object c r p ct s)).
Proof.
  intros F Hr HT. destruct (create_object_effect c r p ct s) as [A B C D E]. specialize (B 0 ltac:(cbn; lia)). cbn [nth List.length seq] in *. rewrite Nat.add_0_r in B.
  assert (L : later (s_heap s) (s_heap (create_object c r p ct s)) /\ d_age (s_heap (create_object c r p ct s) r) <> None).
  { unfold create_object. cbv zeta. destruct (p <=? tc_delay c)%Z; cbn -[upd]; (split; [apply later_upd|rewrite upd_same; discriminate]). }
  destruct L as [L La]. set (s' := create_object c r p ct s) in *. split; [|rewrite D; apply incl_appl, incl_refl]. constructor.
  - intros q Hq. eapply shape_later; [exact L|]. apply F, Hq.
  - intros i Hi. unfold tracked in Hi. rewrite D in Hi. apply in_app_iff in Hi as [Hi|[<-|[]]].
    + rewrite C by (apply F, Hi). eapply ok_later; [exact L|]. apply F, Hi.
    + destruct (fi_heap _ F r Hr) as (D1 & D2 & D3). destruct (rect_dim _ D2) as [E1 E2].
      assert (Lm : List.length (o_once (s_store s' (S (s_icount s)))) = n) by (rewrite (nr_once _ _ _ _ _ _ _ B), E1; apply mask_len; repeat split; auto; apply D1 || apply D2).
      constructor.
      * rewrite (nr_conf _ _ _ _ _ _ _ B). exact E1.
      * rewrite (nr_conf _ _ _ _ _ _ _ B). exact E2.
      * rewrite (nr_points _ _ _ _ _ _ _ B), map_length. exact Lm.
      * exact Lm.
      * rewrite (nr_filter _ _ _ _ _ _ _ B), <- (flat_len _ D2). apply (rg_create _ RG).
      * rewrite (nr_past _ _ _ _ _ _ _ B). intros q Hq. destruct (Nat.ltb _ _); [|destruct Hq]. destruct Hq as [<-|[]]. auto.
      * rewrite (nr_last _ _ _ _ _ _ _ B). exact Hr.
      * rewrite (nr_ct _ _ _ _ _ _ _ B). intros f Ef q Hq. destruct ct as [T|]; [|discriminate]. injection Ef as <-. apply (HT T eq_refl q Hq).
  - rewrite D. apply NoDup_app_intro; [apply F|repeat constructor; intros []|]. intros i Hi [<-|[]]. apply (fi_known _ F) in Hi. lia.
  - intros i Hi. unfold tracked in Hi. rewrite D in Hi. rewrite E. apply in_app_iff in Hi as [Hi|[<-|[]]]; [apply (fi_known _ F) in Hi|]; lia.
Qed.
Lemma creates_fine c rs p ct : forall (s : st), fine s -> (forall r, In r rs -> R r) -> (forall T, ct = Some T -> keeps_shape n dim T) ->
  exists s', create_objects c (map CDet rs) p ct s = (s', Ret tt) /\ fine s'.
Proof.
  induction rs as [|r rs IH]; intros s F Hr HT; cbn [map create_objects]; [eauto|]. apply IH; auto; [|intros; apply Hr; right; auto].
  apply create_fine; auto. apply Hr. left; auto.
Qed.

(* ---- the step before the association ---- *)
Lemma update_dets_shape T dets : keeps_shape n dim T -> forall (s : st) r, det_shape n dim (s_heap s r) ->
  det_shape n dim (s_heap (update_dets_ct T dets s) r) /\ d_age (s_heap (update_dets_ct T dets s) r) = d_age (s_heap s r).
Proof.
  intros HT. induction dets as [|q dets IH]; intros s r D; cbn [update_dets_ct]; [auto|].
  assert (D' : det_shape n dim (s_heap (mod_det q (det_update_ct T) s) r) /\ d_age (s_heap (mod_det q (det_update_ct T) s) r) = d_age (s_heap s r)).
  { cbn -[upd]. unfold upd. destruct (Nat.eqb_spec r q) as [->|]; [|auto]. split; [|reflexivity]. destruct D as (A & B & C). split; [exact A|]. split; [apply HT, B|exact C]. }
  destruct D' as [D1 D2]. destruct (IH _ _ D1) as [E1 E2]. split; [exact E1|congruence].
Qed.
Lemma begin_fine c dets ct (s : st) al de s0 : fine s -> (forall T, ct = Some T -> keeps_shape n dim T) -> begin_update c dets ct s = (al, de, s0) -> fine s0.
Proof.
  intros F HT E. apply begin_update_effect in E as (_ & _ & ST); [|apply F].
  assert (H : forall r, det_shape n dim (s_heap s r) -> det_shape n dim (s_heap s0 r) /\ d_age (s_heap s0 r) = d_age (s_heap s r)).
  { rewrite (sp_heap _ _ _ _ _ ST). unfold ct_heap. destruct ct as [T|]; [|auto]. intros r D. apply update_dets_shape; auto. }
  assert (K : forall i, tracked s0 i -> tracked s i) by (intros i Hi; unfold tracked in Hi; rewrite (sp_tracked _ _ _ _ _ ST) in Hi; eapply kept_tracked; eauto).
  constructor.
  - intros r Hr. apply H, F, Hr.
  - intros i Hi. pose proof Hi as Hi'. unfold tracked in Hi'. rewrite (sp_tracked _ _ _ _ _ ST) in Hi'. rewrite (sp_step _ _ _ _ _ ST) by auto.
    destruct (fi_objs _ F i (K i Hi)) as [O1 O2 O3 O4 O5 O6 O7 O8].
    assert (O6' : forall r, In r (o_past (s_store s i)) -> R r /\ d_age (s_heap s0 r) <> None).
    { intros r Hr. destruct (O6 r Hr) as [X1 X2]. split; [exact X1|]. rewrite (proj2 (H r (fi_heap _ F r X1))). exact X2. }
    destruct ct as [T|]; constructor; cbn; rewrite ?map_length; auto.
    + apply (rg_predict _ RG), O5. + intros f Ef q Hq. injection Ef as <-. apply (HT T eq_refl q Hq). + apply (rg_predict _ RG), O5.
  - rewrite (sp_tracked _ _ _ _ _ ST). apply NoDup_filter, F.
  - intros i Hi. rewrite (sp_icount _ _ _ _ _ ST). apply F, K, Hi.
Qed.

(* ---- a call ---- *)
Lemma good_distance_dets dist rs : distance_defined (FO := FO) n dim dist -> good_distance dist (map CDet rs).
Proof.
  destruct dist as [f|f]; cbn [distance_defined good_distance]; [|auto]. intros H s c i F Hc Hi Hin. apply in_map_iff in Hin as (r & <- & _).
  cbn [view_cand]. apply H; [apply (fi_heap _ F), Hc|apply view_ok; auto].
Qed.
Lemma good_distance_objs f js : reid_defined (FO := FO) n dim f -> good_distance (ScalarDistance f) (map CObj js).
Proof.
  intros H s c i F Hc Hi Hin. apply in_map_iff in Hin as (j & <- & _). cbn [view_cand]. apply H; apply view_ok; auto.
Qed.
Theorem update_returns c dets p ct (s : st) : usable n dim c -> fine s -> (forall r, In r dets -> R r) -> (forall T, ct = Some T -> keeps_shape n dim T) ->
  exists s' out, update c (Some dets) p ct s = (s', Ret out) /\ fine s'.
Proof.
  intros [U1 U2 U3 U4] F Hd HT.
  assert (Eu : update c (Some dets) p ct s = let '(al, de, s0) := begin_update c dets ct s in associate c al de dets p ct s0) by (unfold update; destruct ct; reflexivity).
  rewrite Eu. clear Eu. destruct (begin_update c dets ct s) as [[al de] s0] eqn:Eb.
  pose proof (begin_fine _ _ _ _ _ _ _ F HT Eb) as F0. pose proof (begin_update_effect _ _ _ _ _ _ _ (fi_nodup _ F) Eb) as (-> & -> & Hst).
  unfold associate.
  assert (E1 : filter (fun i => negb (o_initializing (s_store s0 i))) (alive c s) = inits c s).
  { apply filter_ext_in. intros i Hi. rewrite (sp_step _ _ _ _ _ Hst) by (apply alive_kept; auto). rewrite step_initializing. reflexivity. }
  rewrite E1. assert (Tk : forall i, In i (kept c s) -> tracked s0 i) by (intros i Hi; unfold tracked; rewrite (sp_tracked _ _ _ _ _ Hst); exact Hi).
  destruct (uip_dets_total (tc_rnd c) (tc_distance c) (tc_threshold c) (inits c s) dets p s0 U4 U2) as (s1 & [[uc1 mo1] uo1] & X1 & F1 & T1); auto using good_distance_dets.
  { intros i Hi. apply Tk, alive_kept, inits_alive, Hi. }
  rewrite X1. apply (uip_dets laws) in X1 as (M1 & P1 & sa1 & Hp1 & Hh1 & -> & -> & ->); auto.
  set (rest1 := not_in_idxs (map fst P1) 0 dets) in *. set (un1 := not_in_idxs (map snd P1) 0 (inits c s)) in *. set (H1 := map (mk_hit M1 (inits c s) dets) P1) in *.
  assert (PH1 : phase_hits c (inits c s) dets p s0 s1 H1 rest1 un1) by (constructor; exists M1, P1, sa1; auto).
  assert (Nk : NoDup (kept c s)) by (apply NoDup_filter, F). assert (Na : NoDup (alive c s)) by (apply NoDup_filter; auto).
  assert (Ni : NoDup (inits c s)) by (apply NoDup_filter; auto). assert (Nu : NoDup (uninits c s)) by (apply NoDup_filter; auto).
  destruct (phase_hits_facts _ _ _ _ _ _ _ _ _ Ni PH1) as (A1 & A2 & A3 & A4 & A5 & A6 & A7 & A8 & A9 & A10).
  assert (E2 : filter (fun i => o_initializing (s_store s1 i)) (alive c s) = uninits c s).
  { apply filter_ext_in. intros i Hi.
    assert (K : s_store s0 i = obj_update_ct ct (tracker_step (s_store s i))) by (apply (sp_step _ _ _ _ _ Hst), alive_kept; auto).
    assert (K' : o_initializing (s_store s0 i) = o_initializing (s_store s i)) by (rewrite K; apply step_initializing).
    destruct (in_dec Nat.eq_dec i (inits c s)) as [Hin|Hout].
    - assert (Ei : o_initializing (s_store s i) = false) by (unfold inits in Hin; apply filter_In in Hin as [_ X]; apply negb_true_iff in X; auto).
      rewrite Ei. destruct (in_dec Nat.eq_dec i (map h_obj H1)) as [Hh|Hh].
      + apply in_map_iff in Hh as ([[i' r] d] & Eq & Hh). cbn in Eq. subst i'. destruct (A7 _ _ _ Hh) as (om & Hum & o1 & Hr1 & ->). cbn. rewrite (hr_init _ _ _ _ _ Hr1).
        rewrite (upto_min_initializing _ _ Hum), K', Ei. reflexivity.
      + rewrite (upto_min_initializing _ _ (A8 i Hh)), K'. auto.
    - rewrite (A9 i Hout). auto. }
  rewrite E2.
  assert (Hd1 : forall r, In r rest1 -> R r) by (intros r Hr; apply Hd; eapply Permutation_in; [symmetry; exact A2|]; apply in_app_iff; auto).
  destruct (uip_dets_total (tc_rnd c) (tc_distance c) (tc_threshold c) (uninits c s) rest1 p s1 U4 U2) as (s2 & [[uc2 mo2] uo2] & X2 & F2 & T2); auto using good_distance_dets.
  { intros i Hi. unfold tracked. rewrite T1. apply Tk, alive_kept, uninits_alive, Hi. }
  rewrite X2. apply (uip_dets laws) in X2 as (M2 & P2 & sa2 & Hp2 & Hh2 & -> & -> & ->); auto.
  set (news := not_in_idxs (map fst P2) 0 rest1) in *. set (H2 := map (mk_hit M2 (uninits c s) rest1) P2) in *.
  assert (PH2 : phase_hits c (uninits c s) rest1 p s1 s2 H2 news (not_in_idxs (map snd P2) 0 (uninits c s))) by (constructor; exists M2, P2, sa2; auto).
  replace (map (fun q => nth (snd q) (uninits c s) 0) P2) with (map h_obj H2) by (subst H2; rewrite mk_hit_obj, map_map; reflexivity).
  destruct (phase_hits_facts _ _ _ _ _ _ _ _ _ Nu PH2) as (B1 & B2 & B3 & B4 & B5 & B6 & B7 & B8 & B9 & B10).
  assert (IU1 : incl un1 (inits c s)) by (intros x Hx; eapply Permutation_in; [symmetry; exact A3|]; apply in_app_iff; auto).
  assert (IO2 : incl (map h_obj H2) (uninits c s)) by (intros x Hx; eapply Permutation_in; [symmetry; exact B3|]; apply in_app_iff; auto).
  assert (Tk2 : forall i, In i (kept c s) -> tracked s2 i) by (intros i Hi; unfold tracked; rewrite T2, T1; apply Tk, Hi).
  assert (X3 : exists s3, reid_phase c (un1 ++ dead c s) (map h_obj H2) p s2 = (s3, Ret tt) /\ fine s3).
  { unfold reid_phase. destruct (tc_reid_distance c) as [f|] eqn:Ef; [|eauto]. destruct (U3 f eq_refl) as [V1 V2].
    destruct (uip_objs_total (tc_rnd c) (ScalarDistance f) (tc_reid_threshold c) (un1 ++ dead c s) (map h_obj H2) p s2 U4 V2) as (s3 & out & E & F3 & _); auto using good_distance_objs.
    - intros i Hi. apply in_app_iff in Hi as [Hi|Hi].
      + split; [apply Tk2, alive_kept, inits_alive, IU1, Hi|]. intros Hj. eapply inits_not_uninits; [apply IU1, Hi|apply IO2, Hj].
      + split; [apply Tk2; unfold dead in Hi; apply filter_In in Hi; apply Hi|]. intros Hj. eapply alive_not_dead; [apply uninits_alive, IO2, Hj|exact Hi].
    - intros j Hj. apply Tk2, alive_kept, uninits_alive, IO2, Hj.
    - rewrite E. eauto. }
  destruct X3 as (s3 & -> & F3).
  destruct (creates_fine c news p ct s3 F3) as (s4 & -> & F4); auto; [|eauto].
  intros r Hr. apply Hd1. eapply Permutation_in; [symmetry; exact B2|]. apply in_app_iff; auto.
Qed.
End P.

(* ---- a video ---- *)
Section V.
Context {N : Num} (laws : NumLaws N) {FO : filter_ops N}.
Notation st := (st FO).
Variables (n dim : nat) (wf : nat -> fstate FO -> Prop).
Hypothesis Hn : 0 < n.
Hypothesis Hdim : 0 < dim.
Hypothesis RG : regular FO wf.
Notation fine := (fine (FO := FO) n dim wf).

Lemma put_old (l : list (nat * detection N)) : forall h r, ~ In r (map fst l) -> put h l r = h r.
Proof. induction l as [|[q d] l IH]; intros h r H; [reflexivity|]. change (put (upd h q d) l r = h r). rewrite (IH (upd h q d)) by (intros X; apply H; right; exact X). apply upd_other. intros ->. apply H. left. reflexivity. Qed.
Lemma put_new (l : list (nat * detection N)) : NoDup (map fst l) -> forall h r, In r (map fst l) -> exists d, In (r, d) l /\ put h l r = d.
Proof.
  induction l as [|[q d] l IH]; intros Hnd h r H; [destruct H|]. cbn in Hnd. inversion Hnd; subst. change (put h ((q, d) :: l) r) with (put (upd h q d) l r). destruct (in_dec Nat.eq_dec r (map fst l)) as [Hr|Hr].
  - destruct (IH H3 (upd h q d) r Hr) as (d' & A & B). exists d'. split; [right|]; auto.
  - destruct H as [<-|H]; [|contradiction]. exists d. split; [left; reflexivity|]. rewrite put_old by auto. apply upd_same.
Qed.

Definition refs (ins : list (input N)) : list nat := flat_map (fun y => map fst (in_new y)) ins.

Lemma fine_put (R : nat -> Prop) (s : st) (x : input N) g : fine R s -> NoDup (map fst (in_new x)) -> (forall r d, In (r, d) (in_new x) -> det_shape n dim d) ->
  (forall r, In r (map fst (in_new x)) -> ~ R r) ->
  fine (fun r => R r \/ In r (map fst (in_new x))) (meanwhile s (put (s_heap s) (in_new x)) g).
Proof.
  intros [A B C D] Hnd Hs Ho. constructor; cbn; auto.
  - intros r [Hr|Hr].
    + rewrite put_old; auto. intros X. eapply Ho; eauto.
    + destruct (put_new _ Hnd (s_heap s) r Hr) as (d & Hin & ->). eauto.
  - intros i Hi. destruct (B i Hi) as [O1 O2 O3 O4 O5 O6 O7 O8]. constructor; auto. intros r Hr. destruct (O6 r Hr) as [X1 X2]. split; auto. rewrite put_old; auto. intros X. eapply Ho; eauto.
Qed.

Theorem play_returns c : usable n dim c -> forall ins before (s : st), well_formed_calls n dim (before ++ ins) -> fine (fun r => In r (refs before)) s ->
  exists fs, play c s ins = Some fs /\ List.length fs = List.length ins /\
    forall f i, In f fs -> tracked (f_post f) i -> rectangular n dim (estimate (s_store (f_post f) i)).
Proof.
  intros U. induction ins as [|x ins IH]; intros before s W F; cbn [play]; [exists []; split; [auto|split; [auto|intros f i []]]|].
  assert (Hin : In x (before ++ x :: ins)) by (apply in_app_iff; right; left; reflexivity). destruct W as [W1 W2 W3 W4].
  pose proof W1 as Wn. rewrite flat_map_app in Wn. cbn [flat_map] in Wn.
  assert (N1 : NoDup (map fst (in_new x))) by (apply NoDup_app_r in Wn; clear - Wn; induction (map fst (in_new x)) as [|y l IH]; [constructor|]; cbn in Wn; inversion Wn; subst; constructor; auto; intros X; apply H1; apply in_app_iff; auto).
  assert (F' : fine (fun r => In r (refs (before ++ [x]))) (meanwhile s (put (s_heap s) (in_new x)) (s_gcount s))).
  { assert (Q : fine (fun r => In r (refs before) \/ In r (map fst (in_new x))) (meanwhile s (put (s_heap s) (in_new x)) (s_gcount s))).
    { apply fine_put; auto; [intros r d Hr; eapply W2; eauto|]. intros r Hr Hb. eapply (NoDup_app_disj _ _ r Wn); [exact Hb|]. apply in_app_iff. left. exact Hr. }
    assert (Eq : forall r, In r (refs (before ++ [x])) <-> In r (refs before) \/ In r (map fst (in_new x))) by (intros r; unfold refs; rewrite flat_map_app, in_app_iff; cbn; rewrite app_nil_r; reflexivity).
    destruct Q as [A B C D]. constructor; auto.
    - intros r Hr. apply A, Eq, Hr.
    - intros i Hi. destruct (B i Hi) as [O1 O2 O3 O4 O5 O6 O7 O8]. constructor; auto; [|apply Eq; auto]. intros r Hr. destruct (O6 r Hr). split; auto. apply Eq. auto. }
  destruct (update_returns laws n dim wf (fun r => In r (refs (before ++ [x]))) Hn Hdim RG c (in_dets x) (in_period x) (in_ct x) _ U F') as (s' & out & -> & F2).
  { intros r Hr. eapply W3; eauto. } { intros T ET. eapply W4; eauto. }
  destruct (IH (before ++ [x]) s') as (fs & -> & L & Sh); [rewrite <- app_assoc; constructor; auto|exact F2|]. eexists. split; [reflexivity|]. split; [cbn; rewrite L; reflexivity|].
  intros f i [<-|Hf] Hi; [|eauto]. cbn in *. eapply (estimate_shape n dim wf (fun r => In r (refs (before ++ [x])))); eauto. apply (fi_objs _ _ _ _ _ F2). exact Hi.
Qed.
Theorem new_tracker_shapes (c : tconf FO) ins heap g dummy : usable n dim c -> well_formed_calls n dim ins ->
  exists fs, play c (new_tracker heap g dummy) ins = Some fs /\ List.length fs = List.length ins /\
    forall f i, In f fs -> tracked (f_post f) i -> rectangular n dim (estimate (s_store (f_post f) i)).
Proof.
  intros U W. apply (play_returns c U ins [] _ W). constructor; cbn.
  - intros r []. - intros i []. - constructor. - intros i [].
Qed.
Theorem new_tracker_returns (c : tconf FO) ins heap g dummy : usable n dim c -> well_formed_calls n dim ins ->
  exists fs, play c (new_tracker heap g dummy) ins = Some fs /\ List.length fs = List.length ins.
Proof. intros U W. destruct (new_tracker_shapes c ins heap g dummy U W) as (fs & A & B & _). eauto. Qed.
End V.

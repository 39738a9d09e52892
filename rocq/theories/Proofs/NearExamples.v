(** C106: the examples satisfy the hypotheses. *)
From Coq Require Import ZArith QArith Lqa List Bool Arith Lia.
From Verif Require Import Model.Num Model.Base Model.Matching Model.Filter Model.Tracker Spec.MatchingSpec Spec.CallSpec Spec.ExampleVideo Spec.ExampleTracker
  Spec.LabelSpec Spec.UnitSpec Spec.OrderSpec Spec.NearSpec Spec.NearExample Proofs.NumLaws.
Import ListNotations.
Local Open Scope nat_scope.

Section B.
Variable e : Q.
Hypothesis He : (0 <= e)%Q.
Lemma close_refl l : Forall2 (close e) l l.
Proof. induction l; constructor; auto. unfold close. split; Lqa.lra. Qed.
Lemma close_app a b a' b' : Forall2 (close e) a b -> Forall2 (close e) a' b' -> Forall2 (close e) (a ++ a') (b ++ b').
Proof. intros. apply Forall2_app; auto. Qed.
Lemma close_firstn n a b : Forall2 (close e) a b -> Forall2 (close e) (firstn n a) (firstn n b).
Proof. intros H. revert n. induction H; intros [|n]; cbn; auto. Qed.
Lemma close_skipn n a b : Forall2 (close e) a b -> Forall2 (close e) (skipn n a) (skipn n b).
Proof. intros H. revert n. induction H; intros [|n]; cbn; auto. Qed.
Lemma close_shift (l : list Q) : Forall2 (close e) l (map (fun x : QNum => ((x : QNum) + (e : QNum))%n) l).
Proof. induction l as [|x l IH]; cbn [map]; constructor; auto. cbn [nadd QNum]. unfold close. rewrite Qred_correct. split; Lqa.lra. Qed.
Lemma close_assign m z a b : Forall2 (close e) a b -> Forall2 (close e) (mask_assign m z a) (mask_assign m z b).
Proof.
  intros H. revert m z. induction H as [|x y a b Hxy H IH]; intros [|[|] m] [|s z]; cbn; auto; constructor; auto. unfold close. split; Lqa.lra.
Qed.
Lemma close_fill m v a b : Forall2 (close e) a b -> Forall2 (close e) (mask_fill m v a) (mask_fill m v b).
Proof. intros H. revert m. induction H as [|x y a b Hxy H IH]; intros [|[|] m]; cbn; auto; constructor; auto. unfold close. split; Lqa.lra. Qed.
Lemma flatten_map (f : QNum -> QNum) (p : points QNum) : flatten (map (map f) p) = map f (flatten p).
Proof. induction p as [|r p IH]; cbn; [reflexivity|]. unfold flatten in *. cbn. rewrite map_app. f_equal. exact IH. Qed.
Lemma close_update (h : list QNum) z a b : (forall x, In x h -> x = n1 \/ x = n0) -> Forall2 (close e) a b ->
  Forall2 (close e) (map2 nadd (map2 nmul h z) (map2 nmul (map (fun m => (n1 - m)%n) h) a) : list Q)
    (map2 nadd (map2 nmul h (map (fun x : QNum => (x + (e : QNum))%n) z)) (map2 nmul (map (fun m => (n1 - m)%n) h) b)).
Proof.
  intros Hh H. revert z a b H Hh. unfold map2. induction h as [|m h IH]; intros z a b H Hh; [constructor|].
  destruct z as [|s z]; [constructor|]. destruct H as [|x y a b Hxy H]; [constructor|]. cbn [map combine fst snd].
  constructor; [|apply IH; auto; intros; apply Hh; right; auto].
  destruct Hxy as [X Y]. destruct (Hh m (or_introl eq_refl)) as [-> | ->]; cbn [nadd nmul nsub n1 n0 QNum]; unfold close; rewrite !Qred_correct; split; Lqa.lra.
Qed.
Lemma mask_numbers dim (now : list bool) (x : QNum) : In x (repeat_each dim (map (fun m : bool => if m then n1 else n0) now)) -> x = n1 \/ x = n0.
Proof.
  unfold repeat_each. rewrite in_flat_map. intros (y & Hy & Hx). apply repeat_spec in Hx. subst y. apply in_map_iff in Hy as ([|] & <- & _); auto.
Qed.
Theorem biased_follows : filters_follow (FO := exF) (FO' := biased e) (close_filters e).
Proof.
  split.
  - intros p. cbn. unfold nf_create, close_filters. cbn [nf_dim_z nf_x]. rewrite flatten_map, !map_length. split; [reflexivity|].
    apply close_app; [apply close_shift|apply close_refl].
  - intros a b H. exact H.
  - intros a b z dim now h [D H]. cbn. unfold nf_update, close_filters. cbn [nf_dim_z nf_x]. rewrite D. split; [reflexivity|].
    apply close_app; [|apply close_skipn, H]. apply close_update; [intros x; apply mask_numbers|apply close_firstn, H].
  - intros a b dim dimz now once z [D H]. cbn. unfold close_filters, reset_first_detected. cbn [nf_dim_z nf_x]. split; [exact D|].
    apply close_app; [apply close_assign, close_firstn, H|apply close_fill, close_skipn, H].
Qed.

Lemma close_first a b : Forall2 (close e) a b -> close e (first_of a) (first_of b).
Proof. intros [|x y a' b' H _]; [split; cbn; Lqa.lra|exact H]. Qed.
Lemma ex_abs_spec x : (0 <= x /\ ex_abs x = x \/ x <= 0 /\ ex_abs x = - x)%Q.
Proof. unfold ex_abs. destruct (Qlt_le_dec x 0); [right|left]; split; auto; Lqa.lra. Qed.
Lemma within_of (E x y : Q) : (x - y <= E -> y - x <= E -> within (E : QNum) (DFin (x : QNum)) (DFin (y : QNum)))%Q.
Proof.
  intros A B. cbn [within]. unfold dlt. cbn [dltb nltb nadd QNum]. split; intros C; apply Qltb_lt in C; rewrite Qred_correct in C; Lqa.lra.
Qed.
Lemma abs_near z x z' y : close e z z' -> close e x y -> within ((e + e)%Q : QNum) (DFin (ex_abs (Qred (z - x)) : QNum)) (DFin (ex_abs (Qred (z' - y)) : QNum)).
Proof.
  intros [Z1 Z2] [O1 O2]. pose proof (Qred_correct (z - x)) as Q1. pose proof (Qred_correct (z' - y)) as Q2.
  apply within_of; destruct (ex_abs_spec (Qred (z - x))) as [[A ->]|[A ->]], (ex_abs_spec (Qred (z' - y))) as [[B ->]|[B ->]];
    rewrite ?Q1, ?Q2 in *; Lqa.lra.
Qed.
Lemma line_near : values_near (FO := exF) (FO' := biased e) (within ((e + e)%Q : QNum)) (close_filters e) (fun d => d) (fun d => d) line_distance line_distance.
Proof.
  intros c c' o o' d Hc [Ho _] E. unfold line_distance in *. cbn [f_x exF nofilter_ops biased] in *.
  pose proof (close_first _ _ (proj2 (ns_filter _ _ _ _ Ho))) as [O1 O2]. 
  set (z := match c with VDet d => ex_point (d_absolute_points d) | VObj o' => first_of (nf_x (o_filter (v_obj o'))) end) in *.
  set (z' := match c' with VDet d => ex_point (d_absolute_points d) | VObj o' => first_of (nf_x (o_filter (v_obj o'))) end).
  assert (Z : close e z z').
  { destruct c as [q|v], c' as [q'|v']; cbn in Hc; try contradiction; [subst q'; split; unfold z, z'; Lqa.lra|]. destruct Hc as [Hv _]. apply close_first, (proj2 (ns_filter _ _ _ _ Hv)). }
  eexists. split; [reflexivity|]. injection E as <-. apply abs_near; [exact Z|split; assumption].
Qed.
Lemma line_off_near {FO : filter_ops QNum} : values_near (FO := FO) (FO' := FO) (within (e : QNum)) eq (fun d => d) (fun d => d) line_distance (line_distance_off e).
Proof.
  intros c c' o o' d Hc [Ho _] E. unfold line_distance_off, line_distance in *. injection E as <-. rewrite <- (ns_filter _ _ _ _ Ho).
  set (z := match c with VDet d => ex_point (d_absolute_points d) | VObj o' => first_of (f_x FO (o_filter (v_obj o'))) end) in *.
  set (z' := match c' with VDet d => ex_point (d_absolute_points d) | VObj o' => first_of (f_x FO (o_filter (v_obj o'))) end).
  assert (z' = z) as ->.
  { destruct c as [q|v], c' as [q'|v']; cbn in Hc; try contradiction; [subst q'; reflexivity|]. destruct Hc as [Hv _]. unfold z, z'. rewrite <- (ns_filter _ _ _ _ Hv). reflexivity. }
  eexists. split; [reflexivity|]. set (w := ex_abs _). clearbody w. destruct (Qltb _ _); apply within_of; cbn [nadd QNum]; rewrite ?Qred_correct; Lqa.lra.
Qed.
Lemma six_stops : can_stop (N := QNum) (fun d => d) (DFin (6%Q : QNum)).
Proof. split; reflexivity. Qed.
Theorem biased_alike : nearly_alike (FO := exF) (FO' := biased e) (within ((e + e)%Q : QNum)) (close_filters e) (line_tracker (FO := exF) line_distance) (line_tracker (FO := biased e) line_distance).
Proof. split; cbn; auto; [exact line_near| |repeat split]. split; [exact six_stops|]. split; [exact six_stops|]. intros X. elim X. reflexivity. Qed.
Theorem off_alike : nearly_alike (FO := exF) (FO' := exF) (within (e : QNum)) eq (line_tracker (FO := exF) line_distance) (line_tracker (FO := exF) (line_distance_off e)).
Proof. split; cbn; auto; [exact line_off_near| |repeat split]. split; [exact six_stops|]. split; [exact six_stops|]. intros X. elim X. reflexivity. Qed.
End B.

Lemma plays {N : Num} {FO : filter_ops N} (c : tconf FO) s ins : (match play c s ins with Some _ => true | None => false end) = true -> play c s ins = Some (frames c s ins).
Proof. unfold frames. destruct (play c s ins); [reflexivity|discriminate]. Qed.
(** In the third call object 1 is matched to different detections. *)
Lemma different_pairs {N : Num} {FO : filter_ops N} near (R : fstate FO -> fstate FO -> Prop) (fa fb : list (frame FO)) :
  (match nth_error fa 2, nth_error fb 2 with
   | Some f, Some f' => existsb (Nat.eqb 1) (s_tracked (f_post f)) && negb (Nat.eqb (last_det (f_post f) 1) (last_det (f_post f') 1))
   | _, _ => false end) = true -> ~ Forall2 (same_frame near R) fa fb.
Proof.
  intros H F. destruct fa as [|x0 [|x1 [|f fa]]]; try discriminate. destruct fb as [|y0 [|y1 [|f' fb]]]; try discriminate. cbn [nth_error] in H.
  inversion F as [|? ? ? ? _ F1]; subst. inversion F1 as [|? ? ? ? _ F2]; subst. inversion F2 as [|? ? ? ? G _]; subst.
  apply andb_true_iff in H as [A B]. apply existsb_exists in A as (i & Hi & E). apply Nat.eqb_eq in E. subst i.
  pose proof (ns_last_det _ _ _ _ (sf_objects _ _ _ _ G 1 Hi)) as X. unfold last_det in B. rewrite X, Nat.eqb_refl in B. discriminate.
Qed.
Lemma line_same_values near {FO : filter_ops QNum} : same_values (FO := FO) near line_distance.
Proof.
  intros c c' o o' Hc [Ho _]. unfold line_distance. rewrite <- (ns_filter _ _ _ _ Ho).
  destruct c as [q|v], c' as [q'|v']; cbn in Hc; try contradiction; [subst q'; reflexivity|]. destruct Hc as [Hv _]. rewrite <- (ns_filter _ _ _ _ Hv). reflexivity.
Qed.

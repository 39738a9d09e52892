(** C103: the estimates of both Kalman filters are weighted sums of the measurements. *)
From Coq Require Import Reals Qreals Lra Lia Bool List Arith.
From Verif Require Import Model.Num Model.Base Model.Filter Model.KalmanMatrix Spec.KalmanSpec Spec.KalmanUseSpec Spec.WeightSpec
  Proofs.KalmanProofs Proofs.KalmanTheorems Proofs.KalmanMore.
Import ListNotations.
Local Open Scope R_scope.

Lemma total_app a b : total (a ++ b) = total a + total b.
Proof. unfold total. induction a as [|x a IH]; cbn; [lra|]. rewrite IH. lra. Qed.
Lemma weighted_snoc w z c y : length w = length z -> weighted (w ++ [c]) (z ++ [y]) = weighted w z + c * y.
Proof.
  revert z. induction w as [|a w IH]; intros [|b z] L; try discriminate; unfold weighted, total in *; cbn in *; [lra|]. injection L as L. rewrite IH by exact L. lra.
Qed.
Definition blend (a b : R) (u v : list R) : list R := map (fun p => a * fst p + b * snd p) (combine u v).
Lemma blend_length a b u v : length u = length v -> length (blend a b u v) = length u.
Proof. intros L. unfold blend. rewrite map_length, combine_length. lia. Qed.
Lemma blend_weighted a b u : forall v z, length u = length v -> weighted (blend a b u v) z = a * weighted u z + b * weighted v z.
Proof.
  induction u as [|x u IH]; intros [|y v] z L; try discriminate; [unfold weighted, total; cbn; lra|]. injection L as L. destruct z as [|c z]; [unfold weighted, total; cbn; lra|].
  unfold weighted, total in *. cbn. change (map (fun p => a * fst p + b * snd p) (combine u v)) with (blend a b u v). rewrite IH by exact L. lra.
Qed.
Lemma blend_total a b u : forall v, length u = length v -> total (blend a b u v) = a * total u + b * total v.
Proof.
  induction u as [|x u IH]; intros [|y v] L; try discriminate; [unfold total; cbn; lra|]. injection L as L. unfold blend in *. unfold total in *. cbn. rewrite IH by exact L. lra.
Qed.
Lemma blend_zero a b u : forall v j, length u = length v -> nth j u 0 = 0 -> nth j v 0 = 0 -> nth j (blend a b u v) 0 = 0.
Proof.
  induction u as [|x u IH]; intros [|y v] [|j] L A B; try discriminate; try reflexivity.
  - cbn in *. subst. lra.
  - injection L as L. exact (IH v j L A B).
Qed.

(** One coordinate whose corrections have gains that depend on the covariance only. *)
Definition cpattern (l : list cact) : list (option bool) := map (fun a => match a with CPredict => None | CCorrect _ b => Some b end) l.
Definition creadings (l : list cact) : list R := map (fun a => match a with CPredict => 0 | CCorrect z b => if b then z else 0 end) l.
Definition place (x v : R) (P : R * R * R) : crd := let '(a, b, c) := P in MkCoord (N := RNum) x v a b c.
Section Abstract.
Variable do : crd -> cact -> crd.
Variable I : R * R * R -> Prop.
Hypothesis Hp : forall P, I P -> exists P', I P' /\ forall x v, do (place x v P) CPredict = place (x + v) v P'.
Hypothesis Hc : forall P, I P -> exists g h P', I P' /\ forall x v z, do (place x v P) (CCorrect z true) = place (x + g * (z - x)) (v + h * (z - x)) P'.
Hypothesis Hn : forall P, I P -> exists P', I P' /\ forall x v z, do (place x v P) (CCorrect z false) = place x v P'.

Lemma abstract_weights P0 pat : I P0 -> exists w u P, I P /\ weights_for pat w 1 /\ weights_for pat u 0 /\
  forall x l, cpattern l = pat -> fold_left do l (place x 0 P0) = place (weighted w (x :: creadings l)) (weighted u (x :: creadings l)) P.
Proof.
  intros H0. induction pat as [|a pat (w & u & P & HI & (Lw & Sw & Zw) & (Lu & Su & Zu) & H)] using rev_ind.
  - exists [1], [0], P0. split; [exact H0|]. split; [|split].
    + split; [reflexivity|]. split; [unfold total; cbn; lra|]. intros j _. destruct j as [|[|j]]; reflexivity.
    + split; [reflexivity|]. split; [unfold total; cbn; lra|]. intros j _. destruct j as [|[|j]]; reflexivity.
    + intros x l E. destruct l; [|discriminate]. unfold weighted, total, place. destruct P0 as [[? ?] ?]. cbn. f_equal; lra.
  - assert (X : exists g h d P', I P' /\ (a <> Some true -> g = 0 /\ h = 0) /\ forall x v z c, cpattern [c] = [a] -> creadings [c] = [z] ->
        do (place x v P) c = place ((1 - g) * x + d * v + g * z) (v + h * (z - x)) P').
    { destruct a as [[|]|].
      - destruct (Hc P HI) as (g & h & P' & I' & E). exists g, h, 0, P'. split; [exact I'|]. split; [congruence|]. intros x v z c Ec Er. destruct c as [|y b]; [discriminate|]. injection Ec as ->. injection Er as <-.
        rewrite E. unfold place. destruct P' as [[? ?] ?]. f_equal. ring.
      - destruct (Hn P HI) as (P' & I' & E). exists 0, 0, 0, P'. split; [exact I'|]. split; [auto|]. intros x v z c Ec Er. destruct c as [|y b]; [discriminate|]. injection Ec as ->.
        rewrite E. unfold place. destruct P' as [[? ?] ?]. f_equal; ring.
      - destruct (Hp P HI) as (P' & I' & E). exists 0, 0, 1, P'. split; [exact I'|]. split; [auto|]. intros x v z c Ec Er. destruct c as [|y b]; [|discriminate].
        rewrite E. unfold place. destruct P' as [[? ?] ?]. f_equal; ring. }
    destruct X as (g & h & d & P' & I' & Z & E). assert (L : length w = length u) by congruence.
    exists (blend (1 - g) d w u ++ [g]), (blend (- h) 1 w u ++ [h]), P'. split; [exact I'|]. split; [|split].
    + split; [rewrite app_length, blend_length, Lw, app_length by exact L; cbn; lia|]. split; [rewrite total_app, blend_total, Sw, Su by exact L; cbn; lra|].
      intros j Hj. destruct (Nat.lt_ge_cases j (length pat)) as [C|C].
      * rewrite nth_error_app1 in Hj by exact C. rewrite app_nth1 by (rewrite blend_length, Lw by exact L; lia). apply blend_zero; auto.
      * rewrite app_nth2 by (rewrite blend_length, Lw by exact L; lia). rewrite blend_length, Lw by exact L. destruct (j - length pat)%nat as [|i] eqn:Ei; replace (S j - S (length pat))%nat with (j - length pat)%nat by lia; rewrite Ei; [|destruct i; reflexivity].
        cbn. apply Z. intros ->. apply Hj. rewrite nth_error_app2 by exact C. rewrite Ei. reflexivity.
    + split; [rewrite app_length, blend_length, Lw, app_length by exact L; cbn; lia|]. split; [rewrite total_app, blend_total, Sw, Su by exact L; cbn; lra|].
      intros j Hj. destruct (Nat.lt_ge_cases j (length pat)) as [C|C].
      * rewrite nth_error_app1 in Hj by exact C. rewrite app_nth1 by (rewrite blend_length, Lw by exact L; lia). apply blend_zero; auto.
      * rewrite app_nth2 by (rewrite blend_length, Lw by exact L; lia). rewrite blend_length, Lw by exact L. destruct (j - length pat)%nat as [|i] eqn:Ei; replace (S j - S (length pat))%nat with (j - length pat)%nat by lia; rewrite Ei; [|destruct i; reflexivity].
        cbn. apply Z. intros ->. apply Hj. rewrite nth_error_app2 by exact C. rewrite Ei. reflexivity.
    + intros x l El. destruct (rev_ind (fun l => l = [] \/ exists l' c, l = l' ++ [c]) (or_introl eq_refl) (fun c l' _ => or_intror (ex_intro _ l' (ex_intro _ c eq_refl))) l) as [->|(l' & c & ->)].
      { destruct pat; discriminate. }
      unfold cpattern in El. rewrite map_app in El. apply app_inj_tail in El. destruct El as [El Ec].
      rewrite fold_left_app. cbn [fold_left]. rewrite (H x l' El). assert (Er : exists z, creadings [c] = [z]) by (unfold creadings; cbn; eauto). destruct Er as (z & Er).
      rewrite (E _ _ z c) by (auto; unfold cpattern; cbn; f_equal; exact Ec). 
      assert (Q : forall l', x :: creadings (l' ++ [c]) = (x :: creadings l') ++ [z]) by (intros l1; unfold creadings in *; rewrite map_app, Er; reflexivity).
      rewrite Q. assert (Lr : length (x :: creadings l') = length w) by (cbn; unfold creadings; rewrite map_length, Lw, <- El, map_length; reflexivity).
      rewrite !weighted_snoc by (rewrite blend_length by exact L; congruence). rewrite !blend_weighted by exact L. unfold place. destruct P' as [[? ?] ?]. f_equal; ring.
Qed.
End Abstract.

Lemma pattern_proj k l : cpattern (map (proj k) l) = pattern k l.
Proof. unfold cpattern, pattern. rewrite map_map. apply map_ext. intros [|m]; reflexivity. Qed.
Lemma readings_proj k l : creadings (map (proj k) l) = readings k l.
Proof. unfold creadings, readings. rewrite map_map. apply map_ext. intros [|m]; reflexivity. Qed.


Lemma okf_abstract (p : okf_params RNum) P0 pat : exists w u P, weights_for pat w 1 /\ weights_for pat u 0 /\
  forall x l, cpattern l = pat -> fold_left (coord_do p) l (place x 0 P0) = place (weighted w (x :: creadings l)) (weighted u (x :: creadings l)) P.
Proof.
  destruct (abstract_weights (coord_do p) (fun _ => True)) with (P0 := P0) (pat := pat) as (w & u & P & _ & H); [| | |exact I|exists w, u, P; exact H].
  - intros [[a b] c] _. exists (a, b, c). split; [exact I|]. intros x v. reflexivity.
  - intros [[a b] c] _. exists (1 - kp_R p * 1 / (a + b + (b + c) + kp_Q p + kp_R p * 1)), ((b + c) / (a + b + (b + c) + kp_Q p + kp_R p * 1)).
    eexists (_, _, _). split; [exact I|]. intros x v z. unfold place, coord_do, coord_update. cbn. f_equal; ring.
  - intros [[a b] c] _. eexists (_, _, _). split; [exact I|]. intros x v z. unfold place, coord_do, coord_update. cbn. f_equal; ring.
Qed.
Theorem okf_weights (p : okf_params RNum) pat : exists w u, weights_for pat w 1 /\ weights_for pat u 0 /\
  forall (z0 : points RNum) l k x, let d := length (flatten z0) in Forall (action_fits d) l -> pattern k l = pat -> nth_error (flatten z0) k = Some x ->
    nth_error (k_x (okf_acts p z0 l)) k = Some (weighted w (x :: readings k l)) /\
    nth_error (k_x (okf_acts p z0 l)) (k + d) = Some (weighted u (x :: readings k l)).
Proof.
  destruct (okf_abstract p (0 + kp_pos_variance p, 0 + kp_pos_vel_covariance p, 0 + kp_vel_variance p) pat) as (w & u & P & Hw & Hu & H).
  exists w, u. split; [exact Hw|]. split; [exact Hu|]. intros z0 l k x d Fl Ep Ex. assert (Hk : (k < d)%nat) by (apply nth_error_Some; congruence).
  destruct (okf_entries p z0 l k Fl Hk) as (A & B & _). cbv zeta in A, B. rewrite (nth_error_nth _ _ _ Ex) in A, B.
  specialize (H x (map (proj k) l)). rewrite pattern_proj, readings_proj in H. specialize (H Ep). change (coord_start p x) with (place x 0 (0 + kp_pos_variance p, 0 + kp_pos_vel_covariance p, 0 + kp_vel_variance p)) in A, B.
  rewrite H in A, B. destruct P as [[? ?] ?]. split; assumption.
Qed.

Lemma fp_abstract (p : fp_params) P0 pat : 0 < fp_R p -> 0 <= fp_Q p -> qpsd (place 0 0 P0) -> exists w u P, weights_for pat w 1 /\ weights_for pat u 0 /\
  forall x l, cpattern l = pat -> fold_left (fcoord_do p) l (place x 0 P0) = place (weighted w (x :: creadings l)) (weighted u (x :: creadings l)) P.
Proof.
  intros HR HQ H0. destruct (abstract_weights (fcoord_do p) (fun P => qpsd (place 0 0 P))) with (P0 := P0) (pat := pat) as (w & u & P & _ & H); [| | |exact H0|exists w, u, P; exact H].
  - intros [[a b] c] Q. exists (a + 2 * b + c + 1, b + c, c + fp_Q p). split; [|intros x v; reflexivity]. exact (fcoord_do_qpsd p _ CPredict HQ HR Q).
  - intros [[a b] c] Q. exists (a / (a + fp_R p)), (b / (a + fp_R p)). pose proof (qpsd_pv _ Q) as Hpv. cbn in Hpv. exists (a * fp_R p / (a + fp_R p), b * fp_R p / (a + fp_R p), c - b * b / (a + fp_R p)). split.
    2: { intros x v z. unfold fcoord_do. rewrite c2_update_closed by (cbn; assumption). reflexivity. }
    pose proof (fcoord_do_qpsd p _ (CCorrect 0 true) HQ HR Q) as X. unfold fcoord_do in X. rewrite c2_update_closed in X by (cbn; assumption). exact X.
  - intros [[a b] c] Q. pose proof (qpsd_pv _ Q) as Hpv. cbn in Hpv. exists (a, b, c). split; [exact Q|]. intros x v z. unfold fcoord_do. rewrite c2_update_closed by (cbn; assumption). reflexivity.
Qed.
Theorem fp_weights (inv : nat -> mat -> mat) (p : fp_params) pat : inverts_diagonal inv -> 0 < fp_R p -> 0 <= fp_Q p -> 0 <= fp_P p ->
  exists w u, weights_for pat w 1 /\ weights_for pat u 0 /\
  forall (z0 : points RNum) l k x, let d := length (flatten z0) in Forall (action_fits d) l -> pattern k l = pat -> nth_error (flatten z0) k = Some x ->
    nth_error (fp_x (fp_acts inv p z0 l)) k = Some (weighted w (x :: readings k l)) /\
    nth_error (fp_x (fp_acts inv p z0 l)) (k + d) = Some (weighted u (x :: readings k l)).
Proof.
  intros Hi HR HQ HP. destruct (fp_abstract p (1, 0, fp_P p) pat HR HQ (fcoord_start_qpsd p 0 HP)) as (w & u & P & Hw & Hu & H).
  exists w, u. split; [exact Hw|]. split; [exact Hu|]. intros z0 l k x d Fl Ep Ex. assert (Hk : (k < d)%nat) by (apply nth_error_Some; congruence).
  destruct (fp_entries inv p Hi HR HQ HP z0 l k Fl Hk) as (A & B). cbv zeta in A, B. rewrite (nth_error_nth _ _ _ Ex) in A, B.
  specialize (H x (map (proj k) l)). rewrite pattern_proj, readings_proj in H. specialize (H Ep). change (fcoord_start p x) with (place x 0 (1, 0, fp_P p)) in A, B.
  rewrite H in A, B. destruct P as [[? ?] ?]. split; assumption.
Qed.

(** The first correction with the default parameters. *)
Theorem okf_default_step (z0 : points RNum) m k x z : let d := length (flatten z0) in action_fits d (Correct m) ->
  nth_error (flatten z0) k = Some x -> nth_error (me_z m) k = Some z -> nth_error (me_mask m) k = Some true ->
  let f := okf_acts (okf_default_params (N := RNum)) z0 [Predict; Correct m] in
  nth_error (k_x f) k = Some (x + 111 / 151 * (z - x)) /\ nth_error (k_x f) (k + d) = Some (10 / 151 * (z - x)).
Proof.
  intros d Fm Ex Ez Em f. assert (Hk : (k < d)%nat) by (apply nth_error_Some; congruence).
  destruct (okf_entries (okf_default_params (N := RNum)) z0 [Predict; Correct m] k) as (A & B & _); [constructor; [exact I|constructor; [exact Fm|constructor]]|exact Hk|]. cbv zeta in A, B.
  rewrite (nth_error_nth _ _ _ Ex) in A, B. cbn [map proj] in A, B. rewrite (nth_error_nth _ _ _ Ez), (nth_error_nth _ _ _ Em) in A, B. fold f in A, B. unfold d. rewrite A, B.
  unfold coord_start, fold_left, coord_do, coord_predict, coord_update, okf_default_params. cbn. unfold Q2R. cbn. rewrite !Rinv_1. split; f_equal; field.
Qed.
Theorem fp_default_step (inv : nat -> mat -> mat) (z0 : points RNum) m k x z : inverts_diagonal inv -> let d := length (flatten z0) in action_fits d (Correct m) ->
  nth_error (flatten z0) k = Some x -> nth_error (me_z m) k = Some z -> nth_error (me_mask m) k = Some true ->
  let f := fp_acts inv fp_default_params z0 [Predict; Correct m] in
  nth_error (fp_x f) k = Some (x + 3 / 4 * (z - x)) /\ nth_error (fp_x f) (k + d) = Some (5 / 8 * (z - x)).
Proof.
  intros Hi d Fm Ex Ez Em f. assert (Hk : (k < d)%nat) by (apply nth_error_Some; congruence).
  destruct (fp_entries inv fp_default_params Hi ltac:(cbn; lra) ltac:(cbn; lra) ltac:(cbn; lra) z0 [Predict; Correct m] k) as (A & B); [constructor; [exact I|constructor; [exact Fm|constructor]]|exact Hk|]. cbv zeta in A, B.
  rewrite (nth_error_nth _ _ _ Ex) in A, B. cbn [map proj] in A, B. rewrite (nth_error_nth _ _ _ Ez), (nth_error_nth _ _ _ Em) in A, B. fold f in A, B. unfold d. rewrite A, B.
  unfold fcoord_start, fold_left, fcoord_do, c2_predict, c2_update, fp_default_params. cbn. split; f_equal; field; lra.
Qed.

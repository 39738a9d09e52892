(** C100: only the order of the distances and the threshold matters. *)
From Coq Require Import ZArith QArith Reals List Bool Arith Lia Lqa Psatz.
From Verif Require Import Model.Num Model.Base Model.Matching Model.Filter Model.Float32 Model.Tracker Model.Distances
  Spec.CallSpec Spec.ExampleVideo Spec.ExampleTracker Spec.LabelSpec Spec.UnitSpec Spec.MonotoneSpec Proofs.NumLaws Proofs.MonotoneSim Proofs.MonotoneDistances.
Import ListNotations.
Local Open Scope nat_scope.

(** Two trackers are shown the same video.  What the second one stores as the distance of a pair is [dh] of what the
    first one stores, its threshold is [dh] of the first one's, and [dh] keeps the order (and NaN, zero and infinity); the
    same with [dr] for re-identification.  Every call then has the same outcome: the same result, also the same
    exception, and the same objects, which differ only in the distances they remember. *)
Theorem C100_order {N : Num} (laws : NumLaws N) {FO : filter_ops N} dh dr (c c' : tconf FO) ins h g dummy dummy' :
  distance_unit dh -> distance_unit dr -> ordered_alike dh dr c c' ->
  Forall2 (outcome_but_distances dh dr) (outcomes c (new_tracker h g dummy) ins) (outcomes c' (new_tracker h g dummy') ins).
Proof. exact (fun Uh Ur Hc => tracking_ordered laws dh dr Uh Ur c c' Hc ins h g dummy dummy'). Qed.
Print Assumptions C100_order.

Section C100.
Context {FO : filter_ops RNum}.
Local Open Scope R_scope.
(** A tracker without re-identification, in exact arithmetic. *)
Definition exact_tracker (f : distance FO) (thr : R) (hit_max delay pointwise_max : Z) (det_thr : R) (past_len : nat) : tconf FO :=
  MkTconf f (@DFin RNum thr) hit_max delay pointwise_max (det_thr : RNum) past_len None (@DFin RNum 0) None (fun d => d).

(** Any strictly increasing function of a distance, with 0 for 0, gives the same tracking if it is also applied to the
    threshold. *)
Theorem C100_increasing gr (f : cview FO -> oview FO -> result (dval RNum)) thr hm dl pw dt pl ins h g dummy dummy' :
  increasing gr -> gr 0 = 0 -> ignores_distances f ->
  Forall2 (outcome_but_distances (through gr) (fun d => d))
    (outcomes (exact_tracker (ScalarDistance f) thr hm dl pw dt pl) (new_tracker h g dummy) ins)
    (outcomes (exact_tracker (ScalarDistance (fun c o => result_map (through gr) (f c o))) (gr thr) hm dl pw dt pl) (new_tracker h g dummy') ins).
Proof. exact (increased hm dl pw dt pl gr f thr ins h g dummy dummy'). Qed.

(** The same for vectorized distances, for example 1 - iou, .. *)
Theorem C100_vectorized gr f thr hm dl pw dt pl ins h g dummy dummy' :
  increasing gr -> gr 0 = 0 ->
  Forall2 (outcome_but_distances (through gr) (fun d => d))
    (outcomes (exact_tracker (VectorizedDistance f) thr hm dl pw dt pl) (new_tracker h g dummy) ins)
    (outcomes (exact_tracker (VectorizedDistance (fun ps qs => result_map (map (map (through gr))) (f ps qs))) (gr thr) hm dl pw dt pl)
      (new_tracker h g dummy') ins).
Proof. exact (increased_vectorized hm dl pw dt pl gr f thr ins h g dummy dummy'). Qed.

(** .. and all scalar distance functions of the library qualify. *)
Theorem C100_builtin :
  (forall s f, In (s, f) (@scalar_functions FO) -> ignores_distances f) /\
  (forall t s, ignores_distances (FO := FO) (keypoints_voting_distance t s)) /\
  (forall height width, ignores_distances (FO := FO) (normalized_mean_euclidean_distance height width)).
Proof. exact builtin_ignore. Qed.

(** The square of the "frobenius" distance with the square of the threshold: no square roots are needed. *)
Theorem C100_squared thr hm dl pw dt pl ins h g dummy dummy' : 0 <= thr ->
  Forall2 (outcome_but_distances (through (fun x => x * Rabs x)) (fun d => d))
    (outcomes (exact_tracker (ScalarDistance frobenius) thr hm dl pw dt pl) (new_tracker h g dummy) ins)
    (outcomes (exact_tracker (ScalarDistance (fun c o => result_map (through (fun x => x * x)) (frobenius c o))) (thr * thr) hm dl pw dt pl)
      (new_tracker h g dummy') ins).
Proof. exact (squared_frobenius hm dl pw dt pl thr ins h g dummy dummy'). Qed.
End C100.
Print Assumptions C100_increasing.
Print Assumptions C100_vectorized.
Print Assumptions C100_builtin.
Print Assumptions C100_squared.

(** The order that matters is that of the stored numbers.  Distances are stored as float32, where 1 and 1 + 2^-30 are the
    same number, and then the first detection wins; after an increasing function they may be different numbers. *)
Definition ex100_jump (x : Q) : Q := if Qlt_le_dec 1 x then Qplus x 2 else x.
Definition ex100_through (g : Q -> Q) (d : dval QNum) : dval QNum := match d with DFin x => @DFin QNum (g x) | v => v end.
Definition ex100_conf rnd (f : cview exF -> oview exF -> result (dval QNum)) (thr : Q) : tconf exF :=
  MkTconf (ScalarDistance f) (DFin (thr : QNum)) 3 1 3 (0%Q : QNum) 0 None (DFin (0%Q : QNum)) None rnd.
Definition ex100_start : st exF := new_tracker (FO := exF) (fun _ => ex_det 0) 0 ex_dummy.
Definition ex100_ins : list (input QNum) :=
  [MkInput (N := QNum) [(1, ex_det 0)] [1] 1%Z None; MkInput (N := QNum) [(2, ex_det (1 + (1 # 1073741824))); (3, ex_det (-1))] [2; 3] 1%Z None].
Lemma ex100_jump_unit : distance_unit (ex100_through ex100_jump).
Proof.
  assert (L : forall x y, Qltb (ex100_jump x) (ex100_jump y) = Qltb x y).
  { intros x y. unfold Qltb. f_equal. apply eq_true_iff_eq. rewrite !Qle_bool_iff. unfold ex100_jump. destruct (Qlt_le_dec 1 x), (Qlt_le_dec 1 y); split; intros; lra. }
  split.
  - intros [| |x|] [| |y|]; cbn; auto.
  - intros [| |x|]; reflexivity.
  - intros [| |x|]; cbn; auto. f_equal. apply eq_true_iff_eq. rewrite !Qeq_bool_iff. unfold ex100_jump. destruct (Qlt_le_dec 1 x); split; intros; lra.
  - reflexivity.
Qed.
Theorem C100_float32_refuted : exists (f : cview exF -> oview exF -> result (dval QNum)) dh thr thr' ins,
  distance_unit dh /\ DFin (thr' : QNum) = dh (DFin (thr : QNum)) /\
  map (fun a => o_last_det (s_store (fst a) 1)) (outcomes (ex100_conf round32 f thr) ex100_start ins) <>
  map (fun a => o_last_det (s_store (fst a) 1)) (outcomes (ex100_conf round32 (fun c o => result_map dh (f c o)) thr') ex100_start ins).
Proof.
  exists ex_distance, (ex100_through ex100_jump), 5%Q, 7%Q, ex100_ins. split; [exact ex100_jump_unit|]. split; [reflexivity|]. vm_compute. discriminate.
Qed.
Print Assumptions C100_float32_refuted.

(* ---- concrete cases ---- *)
(** Without rounding the jump changes nothing. *)
Example ex100_alike : ordered_alike (ex100_through ex100_jump) (fun d => d) (ex100_conf (fun d => d) ex_distance 5)
  (ex100_conf (fun d => d) (fun c o => result_map (ex100_through ex100_jump) (ex_distance c o)) 7).
Proof.
  split; cbn; auto.
  - intros c c' o o' A [B _]. assert (E : ex_distance c' o' = ex_distance c o).
    { unfold ex_distance. rewrite (sb_estimate _ _ _ _ B). destruct c as [d|v], c' as [d'|v']; cbn in A; try contradiction; [subst; reflexivity|].
      rewrite (sb_estimate _ _ _ _ (proj1 A)). reflexivity. }
    change (result_map (fun d => d) (result_map (ex100_through ex100_jump) (ex_distance c' o')) = result_map (fun d => ex100_through ex100_jump d) (ex_distance c o)).
    rewrite E. reflexivity.
  - repeat split; vm_compute; auto; intros X; congruence.
  - repeat split.
Qed.
Example ex100_run :
  map (fun a => (snd a, o_last_det (s_store (fst a) 1))) (outcomes (ex100_conf (fun d => d) ex_distance 5) ex100_start ex100_ins) =
  [(Ret [], 1); (Ret [1], 3)] /\
  map (fun a => (snd a, o_last_det (s_store (fst a) 1)))
    (outcomes (ex100_conf (fun d => d) (fun c o => result_map (ex100_through ex100_jump) (ex_distance c o)) 7) ex100_start ex100_ins) =
  [(Ret [], 1); (Ret [1], 3)].
Proof. split; vm_compute; reflexivity. Qed.

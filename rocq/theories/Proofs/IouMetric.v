(** The iou distance is a metric; malformed boxes. *)
From Coq Require Import Reals Lra Lia Bool Arith List.
From Verif Require Import Model.Num Model.Base Model.Tracker Model.Distances Model.BoxCheck Spec.BuiltinSpec Proofs.RingNums Proofs.BuiltinProofs Proofs.BuiltinProofs2.
Import ListNotations.
Local Open Scope R_scope.

(** Common length of three intervals. *)
Definition overlap3 (l r l' r' l'' r'' : R) : R := Rmax (Rmin r (Rmin r' r'') - Rmax l (Rmax l' l'')) 0.
Ltac minmax := unfold overlap, overlap3, Rmin, Rmax in *; repeat destruct Rle_dec; lra.

Lemma overlap3_bounds l r l' r' l'' r'' : l < r -> l' < r' -> l'' < r'' ->
  0 <= overlap3 l r l' r' l'' r'' /\ overlap3 l r l' r' l'' r'' <= overlap l r l' r' /\ overlap3 l r l' r' l'' r'' <= overlap l r l'' r'' /\
  overlap3 l r l' r' l'' r'' <= overlap l' r' l'' r'' /\ overlap l r l' r' + overlap l r l'' r'' - overlap3 l r l' r' l'' r'' <= r - l /\
  overlap l r l' r' + overlap l' r' l'' r'' - overlap3 l r l' r' l'' r'' <= r' - l' /\
  overlap l r l'' r'' + overlap l' r' l'' r'' - overlap3 l r l' r' l'' r'' <= r'' - l''.
Proof. intros A B C. repeat split; minmax. Qed.

(** The same for areas. *)
Lemma area_in a1 p1 q1 r1 a2 p2 q2 r2 : 0 <= r1 -> r1 <= p1 -> r1 <= q1 -> p1 + q1 - r1 <= a1 ->
  0 <= r2 -> r2 <= p2 -> r2 <= q2 -> p2 + q2 - r2 <= a2 -> p1 * p2 + q1 * q2 - r1 * r2 <= a1 * a2.
Proof.
  intros A B C D A' B' C' D'.
  assert (X : (p1 + q1 - r1) * (p2 + q2 - r2) <= a1 * a2) by (apply Rmult_le_compat; lra).
  assert (Y : 0 <= (p1 - r1) * (q2 - r2)) by (apply Rmult_le_pos; lra).
  assert (Z : 0 <= (q1 - r1) * (p2 - r2)) by (apply Rmult_le_pos; lra). lra.
Qed.

Lemma ratio_up x y z : 0 <= x -> x <= y -> 0 < y -> 0 <= z -> x / y <= (x + z) / (y + z).
Proof.
  intros A B C D. apply Rmult_le_reg_r with (y * (y + z)); [apply Rmult_lt_0_compat; lra|].
  replace (x / y * (y * (y + z))) with (x * (y + z)) by (field; lra). replace ((x + z) / (y + z) * (y * (y + z))) with ((x + z) * y) by (field; lra).
  assert (x * z <= y * z) by (apply Rmult_le_compat_r; lra). lra.
Qed.
Lemma ratio_down x y z : 0 <= x -> 0 < y -> y <= z -> x / z <= x / y.
Proof.
  intros A B C. unfold Rdiv. apply Rmult_le_compat_l; [exact A|]. apply Rinv_le_contravar; lra.
Qed.

(** Areas of three sets, of their pairwise intersections and of the intersection of all three. *)
Lemma jaccard a b c ab ac bc t : 0 <= t -> t <= ab -> t <= ac -> t <= bc ->
  ab + ac - t <= a -> ab + bc - t <= b -> ac + bc - t <= c -> 0 < a -> 0 < b -> 0 < c ->
  1 - ac / (a + c - ac) <= (1 - ab / (a + b - ab)) + (1 - bc / (b + c - bc)).
Proof.
  intros T AB AC BC A B C PA PB PC.
  assert (Uac : 0 < a + c - ac) by lra. assert (Uab : 0 < a + b - ab) by lra. assert (Ubc : 0 < b + c - bc) by lra.
  set (U := a + b + c - ab - ac - bc + t).
  replace (1 - ac / (a + c - ac)) with ((a + c - 2 * ac) / (a + c - ac)) by (field; lra).
  replace (1 - ab / (a + b - ab)) with ((a + b - 2 * ab) / (a + b - ab)) by (field; lra).
  replace (1 - bc / (b + c - bc)) with ((b + c - 2 * bc) / (b + c - bc)) by (field; lra).
  assert (X : (a + c - 2 * ac) / (a + c - ac) <= (a + c - 2 * ac + (b - ab - bc + t)) / (a + c - ac + (b - ab - bc + t))) by (apply ratio_up; lra).
  assert (Y : (a + b - 2 * ab) / U <= (a + b - 2 * ab) / (a + b - ab)) by (apply ratio_down; unfold U; lra).
  assert (Z : (b + c - 2 * bc) / U <= (b + c - 2 * bc) / (b + c - bc)) by (apply ratio_down; unfold U; lra).
  replace (a + c - ac + (b - ab - bc + t)) with U in X by (unfold U; ring).
  assert (PU : 0 < U) by (unfold U; lra).
  assert (V : (a + c - 2 * ac + (b - ab - bc + t)) / U <= (a + b - 2 * ab) / U + (b + c - 2 * bc) / U).
  { unfold Rdiv. rewrite <- Rmult_plus_distr_r. apply Rmult_le_compat_r; [left; apply Rinv_0_lt_compat, PU|]. lra. }
  lra.
Qed.

Lemma iou_triangle a b c : well_formed a -> well_formed b -> well_formed c -> exists x y z,
  iou_is a b x /\ iou_is b c y /\ iou_is a c z /\ z <= x + y.
Proof.
  intros (l & t & r & m & -> & W & H) (l' & t' & r' & m' & -> & W' & H') (l'' & t'' & r'' & m'' & -> & W'' & H'').
  eexists. eexists. eexists.
  split; [apply iou_is_of; [reflexivity|reflexivity|exact (iou_entry_value l t r m l' t' r' m' W H W' H')]|].
  split; [apply iou_is_of; [reflexivity|reflexivity|exact (iou_entry_value l' t' r' m' l'' t'' r'' m'' W' H' W'' H'')]|].
  split; [apply iou_is_of; [reflexivity|reflexivity|exact (iou_entry_value l t r m l'' t'' r'' m'' W H W'' H'')]|].
  destruct (overlap3_bounds l r l' r' l'' r'' W W' W'') as (A0 & A1 & A2 & A3 & A4 & A5 & A6).
  destruct (overlap3_bounds t m t' m' t'' m'' H H' H'') as (B0 & B1 & B2 & B3 & B4 & B5 & B6).
  apply jaccard with (t := overlap3 l r l' r' l'' r'' * overlap3 t m t' m' t'' m'').
  - apply Rmult_le_pos; assumption.
  - apply Rmult_le_compat; assumption.
  - apply Rmult_le_compat; assumption.
  - apply Rmult_le_compat; assumption.
  - apply area_in; assumption.
  - apply area_in; assumption.
  - apply area_in; assumption.
  - apply Rmult_lt_0_compat; lra.
  - apply Rmult_lt_0_compat; lra.
  - apply Rmult_lt_0_compat; lra.
Qed.

(** Malformed boxes. *)
Lemma four (v : list R) : length v = 4%nat -> exists l t r b, v = box l t r b.
Proof. destruct v as [|l [|t [|r [|b [|]]]]]; try discriminate. intros _. exists l, t, r, b. reflexivity. Qed.
Lemma well_formed_box l t r b : well_formed (box l t r b) <-> l < r /\ t < b.
Proof.
  split; [|intros [A B]; exists l, t, r, b; auto]. intros (l' & t' & r' & b' & E & A & B). unfold box in E. injection E as -> -> -> ->. auto.
Qed.
Lemma iou_malformed c o : length c = 4%nat -> length o = 4%nat -> ~ (well_formed c /\ well_formed o) ->
  (area c + area o <> 0 -> iou_is c o 1) /\ (area c + area o = 0 -> @iou RNum [c] [o] = Ret [[DNaN]]).
Proof.
  intros C O M. pose proof (iou_pair c o C O) as P. destruct (four c C) as (l & t & r & b & ->). destruct (four o O) as (l' & t' & r' & b' & ->).
  assert (I : Rmax (Rmin r r' - Rmax l l') 0 * Rmax (Rmin b b' - Rmax t t') 0 = 0).
  { destruct (Rlt_dec 0 (Rmin r r' - Rmax l l')) as [X|X]; [|rewrite (Rmax_right _ 0) by lra; ring].
    destruct (Rlt_dec 0 (Rmin b b' - Rmax t t')) as [Y|Y]; [|rewrite (Rmax_right (Rmin b b' - Rmax t t') 0) by lra; ring].
    exfalso. apply M. rewrite !well_formed_box. unfold Rmin, Rmax in X, Y. repeat destruct Rle_dec; repeat split; lra. }
  assert (E : @iou_entry RNum (box l t r b) (box l' t' r' b') = one_minus (@fdiv RNum 0 (area (box l t r b) + area (box l' t' r' b')))).
  { unfold iou_entry, box_area. rewrite !nmax_R, !nmin_R. cbn [box nth]. cbn [nsub nadd nmul RNum]. change (@n0 RNum) with 0. rewrite I.
    f_equal. f_equal. unfold area. cbn [box nth]. ring. }
  unfold fdiv in E. cbn [neqb RNum] in E. change (@n0 RNum) with 0 in E.
  split; intros A.
  - apply iou_is_of; [reflexivity|reflexivity|]. rewrite E. destruct (reqb_spec (area (box l t r b) + area (box l' t' r' b')) 0) as [Z|Z]; [contradiction|].
    cbn [one_minus]. f_equal. cbn. unfold Rdiv. ring.
  - refine (eq_trans P (f_equal (fun v => Ret [[v]]) _)). refine (eq_trans E _). destruct (reqb_spec (area (box l t r b) + area (box l' t' r' b')) 0) as [Z|Z]; [|contradiction].
    destruct (reqb_spec 0 0) as [Z0|Z0]; [reflexivity|]. elim Z0. reflexivity.
Qed.

Lemma rltb_iff x y : @nltb RNum x y = true <-> x < y.
Proof. cbn [nltb RNum]. destruct (rltb_spec x y); split; intros; try assumption; try reflexivity; try discriminate; contradiction. Qed.
Lemma warned cs : Forall (fun v => length v = 4%nat) cs -> exists w, @validate_bboxes RNum cs = Ret w /\ (w = false <-> Forall well_formed cs).
Proof.
  intros F. unfold validate_bboxes.
  assert (A : forallb (fun c : list (num RNum) => Nat.eqb (length c) 4) cs = true)
    by (apply forallb_forall; rewrite Forall_forall in F; intros x I; apply Nat.eqb_eq; exact (F x I)).
  rewrite A. eexists. split; [reflexivity|]. rewrite negb_false_iff, andb_true_iff, !forallb_forall, Forall_forall. rewrite Forall_forall in F. split.
  - intros [X Y] v I. destruct (four v (F v I)) as (l & t & r & b & ->). apply well_formed_box. split; apply rltb_iff; [exact (X _ I)|exact (Y _ I)].
  - intros X. split; intros v I; pose proof (X v I) as Wf; destruct (four v (F v I)) as (l & t & r & b & ->); apply well_formed_box in Wf; apply rltb_iff; apply Wf.
Qed.
Lemma not_columns cs : Exists (fun v => length v <> 4%nat) cs -> forall os, @iou_logged RNum cs os = Raise EAssertionError.
Proof.
  intros X os. unfold iou_logged, validate_bboxes.
  assert (A : forallb (fun c : list (num RNum) => Nat.eqb (length c) 4) cs = false).
  { apply not_true_is_false. rewrite forallb_forall. intros Y. rewrite Exists_exists in X. destruct X as (v & I & N). apply N, Nat.eqb_eq, Y, I. }
  rewrite A. reflexivity.
Qed.
Lemma logged cs os : Forall (fun v => length v = 4%nat) cs -> Forall (fun v => length v = 4%nat) os ->
  exists w M, @iou_logged RNum cs os = Ret (w, M) /\ @iou RNum cs os = Ret M /\ (w = false <-> Forall well_formed cs).
Proof.
  intros C O. destruct (warned cs C) as (w & E & Hw). exists w. eexists. unfold iou_logged. rewrite E, (iou_value cs os C O). auto.
Qed.
Lemma silent_nan : exists c o, well_formed c /\ length o = 4%nat /\ @iou_logged RNum [c] [o] = Ret (false, [[DNaN]]).
Proof.
  exists (box 0 0 1 1), (box 1 0 0 1). assert (Wf : well_formed (box 0 0 1 1)) by (apply well_formed_box; lra). split; [exact Wf|]. split; [reflexivity|].
  unfold iou_logged. destruct (warned [box 0 0 1 1]) as (w & -> & Hw); [repeat constructor|].
  assert (w = false) as -> by (apply Hw; repeat constructor; exact Wf).
  destruct (iou_malformed (box 0 0 1 1) (box 1 0 0 1) eq_refl eq_refl) as [_ E].
  - rewrite !well_formed_box. lra.
  - assert (Z : area (box 0 0 1 1) + area (box 1 0 0 1) = 0) by (unfold area; cbn; lra).
    refine (f_equal (fun r => match r with Raise e => Raise e | Ret m => Ret (false, m) end) (E Z)).
Qed.

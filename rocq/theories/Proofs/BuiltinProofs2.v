(** C47-C50: iou, keypoint voting, normalized distance, lookup by name. *)
From Coq Require Import Reals Lra Lia Psatz Bool Arith String.
From Coq Require Import List.
From Verif Require Import Model.Num Model.Base Model.Filter Model.Tracker Model.Distances Spec.BuiltinSpec Proofs.BuiltinProofs.
Import ListNotations.
Local Open Scope R_scope.

(** ** C47 *)
Lemma rltb_spec x y : reflect (x < y) (Rltb x y).
Proof. unfold Rltb. destruct (Rlt_dec x y); constructor; auto. Qed.
Lemma reqb_spec x y : reflect (x = y) (Reqb x y).
Proof. unfold Reqb. destruct (Req_EM_T x y); constructor; auto. Qed.
Lemma rltb_true x y : Rltb x y = true <-> x < y.
Proof. destruct (rltb_spec x y); split; auto; discriminate. Qed.
Lemma nmax_R x y : @nmax RNum x y = Rmax x y.
Proof. unfold nmax. cbn. destruct (rltb_spec x y); unfold Rmax; destruct (Rle_dec x y); lra. Qed.
Lemma nmin_R x y : @nmin RNum x y = Rmin x y.
Proof. unfold nmin. cbn. destruct (rltb_spec y x); unfold Rmin; destruct (Rle_dec x y); lra. Qed.

(** Length of the overlap of two intervals. *)
Definition overlap (l r l' r' : R) : R := Rmax (Rmin r r' - Rmax l l') 0.
Lemma overlap_bounds l r l' r' : l < r -> l' < r' -> 0 <= overlap l r l' r' /\ overlap l r l' r' <= r - l /\ overlap l r l' r' <= r' - l'.
Proof. intros. unfold overlap, Rmax, Rmin. repeat destruct Rle_dec; lra. Qed.
Lemma overlap_full l r l' r' : l < r -> l' < r' -> overlap l r l' r' = r - l -> overlap l r l' r' = r' - l' -> l = l' /\ r = r'.
Proof. intros. unfold overlap, Rmax, Rmin in *. repeat destruct Rle_dec; lra. Qed.
Lemma overlap_self l r : l < r -> overlap l r l r = r - l.
Proof. intros. unfold overlap, Rmax, Rmin in *. repeat destruct Rle_dec; lra. Qed.
Lemma overlap_sym l r l' r' : overlap l r l' r' = overlap l' r' l r.
Proof. unfold overlap. rewrite (Rmin_comm r r'), (Rmax_comm l l'). reflexivity. Qed.
Lemma overlap_pos l r l' r' : 0 < overlap l r l' r' <-> exists x, l < x < r /\ l' < x < r'.
Proof.
  unfold overlap. split.
  - intros H. exists ((Rmin r r' + Rmax l l') / 2). unfold Rmax, Rmin in *. repeat destruct Rle_dec; lra.
  - intros [x Hx]. unfold Rmax, Rmin in *. repeat destruct Rle_dec; lra.
Qed.
Lemma overlap_interval l r l' r' a b : a < b -> (forall x, a < x < b <-> l < x < r /\ l' < x < r') -> overlap l r l' r' = b - a.
Proof.
  intros H E.
  assert (H1 : Rmax l l' <= a).
  { destruct (Rle_dec (Rmax l l') a) as [|N]; auto. exfalso.
    set (x := (a + Rmin b (Rmax l l')) / 2). assert (X : a < x < b) by (unfold x, Rmin; destruct Rle_dec; lra).
    pose proof (proj1 (E x) X). unfold x, Rmin, Rmax in *. repeat destruct Rle_dec; lra. }
  assert (H2 : b <= Rmin r r').
  { destruct (Rle_dec b (Rmin r r')) as [|N]; auto. exfalso.
    set (x := (b + Rmax a (Rmin r r')) / 2). assert (X : a < x < b) by (unfold x, Rmax; destruct Rle_dec; lra).
    pose proof (proj1 (E x) X). unfold x, Rmin, Rmax in *. repeat destruct Rle_dec; lra. }
  assert (H3 : a <= Rmax l l').
  { destruct (Rle_dec a (Rmax l l')) as [|N]; auto. exfalso.
    set (x := (a + Rmax l l') / 2). assert (X : l < x < r /\ l' < x < r').
    { unfold x, Rmin, Rmax in *. repeat destruct Rle_dec; lra. }
    apply E in X. unfold x in X. lra. }
  assert (H4 : Rmin r r' <= b).
  { destruct (Rle_dec (Rmin r r') b) as [|N]; auto. exfalso.
    set (x := (b + Rmin r r') / 2). assert (X : l < x < r /\ l' < x < r').
    { unfold x, Rmin, Rmax in *. repeat destruct Rle_dec; lra. }
    apply E in X. unfold x in X. lra. }
  unfold overlap. rewrite Rmax_left by lra. lra.
Qed.

Section Iou.
Variables l t r b l' t' r' b' : R.
Hypotheses (W : l < r) (H : t < b) (W' : l' < r') (H' : t' < b').
Let c := box l t r b.
Let o := box l' t' r' b'.
Let w := overlap l r l' r'.
Let h := overlap t b t' b'.
Lemma union_pos : 0 < (r - l) * (b - t) + (r' - l') * (b' - t') - w * h.
Proof.
  destruct (overlap_bounds l r l' r' W W') as (w0 & w1 & w2). destruct (overlap_bounds t b t' b' H H') as (h0 & h1 & h2).
  fold w in w0, w1, w2. fold h in h0, h1, h2.
  assert (w * h <= (r - l) * (b - t)) by (apply Rmult_le_compat; auto).
  assert (0 < (r' - l') * (b' - t')) by (apply Rmult_lt_0_compat; lra). lra.
Qed.
Lemma iou_entry_value : @iou_entry RNum c o = @DFin RNum (1 - w * h / ((r - l) * (b - t) + (r' - l') * (b' - t') - w * h)).
Proof.
  unfold iou_entry, box_area. rewrite !nmax_R, !nmin_R. cbn [c o box nth].
  unfold fdiv. cbn [neqb RNum].
  change (Rmax (@nsub RNum (Rmin r r') (Rmax l l')) (@n0 RNum)) with w. change (Rmax (@nsub RNum (Rmin b b') (Rmax t t')) (@n0 RNum)) with h.
  change (@n0 RNum) with 0. cbn [nsub nadd nmul RNum].
  destruct (reqb_spec ((r - l) * (b - t) + (r' - l') * (b' - t') - w * h) 0) as [E|E]; [pose proof union_pos; lra|reflexivity].
Qed.
Lemma iou_entry_bounds : let x := 1 - w * h / ((r - l) * (b - t) + (r' - l') * (b' - t') - w * h) in
  0 <= x <= 1 /\ (x = 0 <-> c = o) /\ (x = 1 <-> ~ exists p q, interior c p q /\ interior o p q).
Proof.
  pose proof union_pos as U. intros x.
  destruct (overlap_bounds l r l' r' W W') as (w0 & w1 & w2). destruct (overlap_bounds t b t' b' H H') as (h0 & h1 & h2).
  fold w in w0, w1, w2. fold h in h0, h1, h2. set (D := (r - l) * (b - t) + (r' - l') * (b' - t') - w * h) in *.
  assert (I0 : 0 <= w * h) by (apply Rmult_le_pos; auto).
  assert (I1 : w * h <= (r - l) * (b - t)) by (apply Rmult_le_compat; auto).
  assert (I2 : w * h <= (r' - l') * (b' - t')) by (apply Rmult_le_compat; auto).
  assert (E : x * D = D - w * h) by (unfold x; field; lra).
  split; [|split].
  - split.
    + apply Rmult_le_reg_r with D; auto. rewrite E. unfold D. lra.
    + apply Rmult_le_reg_r with D; auto. rewrite E. lra.
  - split.
    + intros X. rewrite X in E. assert (A1 : w * h = (r - l) * (b - t)) by (unfold D in E; lra).
      assert (A2 : w * h = (r' - l') * (b' - t')) by (unfold D in E; lra).
      assert (full : forall w h W H, 0 <= w <= W -> 0 <= h <= H -> 0 < W -> 0 < H -> w * h = W * H -> w = W /\ h = H).
      { clear. intros w h W H A B P Q E. split; apply Rle_antisym; try lra.
        - apply Rmult_le_reg_r with H; auto. rewrite <- E. apply Rmult_le_compat_l; lra.
        - apply Rmult_le_reg_l with W; auto. rewrite <- E. apply Rmult_le_compat_r; lra. }
      destruct (full w h (r - l) (b - t)) as [B1 B2]; try lra. destruct (full w h (r' - l') (b' - t')) as [B3 B4]; try lra.
      destruct (overlap_full l r l' r' W W' B1 B3) as [-> ->]. destruct (overlap_full t b t' b' H H' B2 B4) as [-> ->]. reflexivity.
    + intros X. unfold c, o, box in X. injection X as <- <- <- <-.
      assert (w = r - l) by (apply overlap_self; auto). assert (h = b - t) by (apply overlap_self; auto).
      assert (D = w * h) by (unfold D; rewrite H0, H1; ring). unfold x. fold D. rewrite <- H2. field. lra.
  - split.
    + intros X. rewrite X in E. assert (Z : w * h = 0) by lra.
      intros (p & q & [Cp Cq] & [Op Oq]). cbn in Cp, Cq, Op, Oq.
      assert (0 < w) by (apply overlap_pos; exists p; auto). assert (0 < h) by (apply overlap_pos; exists q; auto).
      assert (0 < w * h) by (apply Rmult_lt_0_compat; auto). lra.
    + intros N. assert (Z : w * h = 0).
      { destruct (Rle_lt_or_eq_dec 0 w w0) as [Hw|<-]; [|ring]. destruct (Rle_lt_or_eq_dec 0 h h0) as [Hh|<-]; [|ring].
        exfalso. apply overlap_pos in Hw as (p & P1 & P2). apply overlap_pos in Hh as (q & Q1 & Q2).
        apply N. exists p, q. unfold interior. cbn. auto. }
      rewrite Z in E. apply Rmult_eq_reg_r with D; lra.
Qed.
End Iou.

Lemma wf_length v : well_formed v -> length v = 4%nat.
Proof. intros (l & t & r & b & -> & _). reflexivity. Qed.
Lemma iou_value cs os : Forall (fun v => @length R v = 4%nat) cs -> Forall (fun v => @length R v = 4%nat) os ->
  @iou RNum cs os = Ret (map (fun c => map (@iou_entry RNum c) os) cs).
Proof.
  intros C O. unfold iou.
  assert (A1 : forallb (fun c : list (num RNum) => Nat.eqb (length c) 4) cs = true)
    by (apply forallb_forall; rewrite Forall_forall in C; intros x I; apply Nat.eqb_eq; exact (C x I)).
  assert (A2 : forallb (fun o : list (num RNum) => Nat.leb 4 (length o)) os = true)
    by (apply forallb_forall; rewrite Forall_forall in O; intros x I; apply Nat.leb_le, Nat.eq_le_incl; symmetry; exact (O x I)).
  assert (A3 : forallb (fun o : list (num RNum) => Nat.eqb (length o) 4) os = true)
    by (apply forallb_forall; rewrite Forall_forall in O; intros x I; apply Nat.eqb_eq; exact (O x I)).
  rewrite A1, A2, A3. reflexivity.
Qed.
(** One pair of boxes. *)
Definition iou_is (c o : list R) (x : R) : Prop := @iou RNum [c] [o] = Ret [[@DFin RNum x]].
Lemma iou_pair c o : length c = 4%nat -> length o = 4%nat -> @iou RNum [c] [o] = Ret [[@iou_entry RNum c o]].
Proof. intros C O. apply (iou_value [c] [o]); constructor; auto. Qed.
Lemma iou_is_of c o x : length c = 4%nat -> length o = 4%nat -> @iou_entry RNum c o = @DFin RNum x -> iou_is c o x.
Proof. intros C O E. exact (eq_trans (iou_pair c o C O) (f_equal (fun v => Ret [[v]]) E)). Qed.
Lemma iou_matrix cs os : Forall well_formed cs -> Forall well_formed os ->
  exists M, @iou RNum cs os = Ret M /\ length M = length cs /\
  forall i j c o, nth_error cs i = Some c -> nth_error os j = Some o ->
  exists row x, nth_error M i = Some row /\ length row = length os /\ nth_error row j = Some (@DFin RNum x) /\ iou_is c o x.
Proof.
  intros C O. eexists. split; [apply iou_value|].
  1,2: eapply Forall_impl; [apply wf_length|assumption].
  split; [apply map_length|]. intros i j c o Hi Hj.
  pose proof (nth_error_In _ _ Hi) as Ic. pose proof (nth_error_In _ _ Hj) as Io.
  rewrite Forall_forall in C, O. specialize (C c Ic). specialize (O o Io).
  exists (map (@iou_entry RNum c) os). pose proof (iou_pair c o (wf_length _ C) (wf_length _ O)) as P.
  destruct C as (l & t & r & b & -> & W & H). destruct O as (l' & t' & r' & b' & -> & W' & H').
  pose proof (iou_entry_value l t r b l' t' r' b' W H W' H') as E.
  eexists. split; [exact (map_nth_error (fun c => map (@iou_entry RNum c) os) i cs Hi)|]. split; [apply map_length|]. split.
  - rewrite <- E. apply map_nth_error, Hj.
  - apply iou_is_of; [reflexivity|reflexivity|exact E].
Qed.
Lemma iou_behaved c o : well_formed c -> well_formed o -> exists x, iou_is c o x /\ iou_is o c x /\
  0 <= x <= 1 /\ (x = 0 <-> c = o) /\ (x = 1 <-> ~ exists p q, interior c p q /\ interior o p q).
Proof.
  intros C O. pose proof (iou_pair c o (wf_length _ C) (wf_length _ O)) as P. pose proof (iou_pair o c (wf_length _ O) (wf_length _ C)) as P'.
  destruct C as (l & t & r & b & -> & W & H). destruct O as (l' & t' & r' & b' & -> & W' & H').
  eexists. split; [apply iou_is_of; [reflexivity|reflexivity|exact (iou_entry_value l t r b l' t' r' b' W H W' H')]|]. split.
  - apply iou_is_of; [reflexivity|reflexivity|]. rewrite (iou_entry_value l' t' r' b' l t r b W' H' W H).
    rewrite (overlap_sym l' r' l r), (overlap_sym t' b' t b).
    rewrite (Rplus_comm ((r' - l') * (b' - t')) ((r - l) * (b - t))). reflexivity.
  - apply (iou_entry_bounds l t r b l' t' r' b' W H W' H').
Qed.
(** The value when the boxes overlap in a box. *)
Lemma iou_overlapping c o i : well_formed c -> well_formed o -> well_formed i ->
  (forall x y, interior i x y <-> interior c x y /\ interior o x y) ->
  iou_is c o (1 - area i / (area c + area o - area i)).
Proof.
  intros C O I E. pose proof (iou_pair c o (wf_length _ C) (wf_length _ O)) as P.
  destruct C as (l & t & r & b & -> & W & H). destruct O as (l' & t' & r' & b' & -> & W' & H'). destruct I as (a0 & a1 & a2 & a3 & -> & WI & HI).
  apply iou_is_of; [reflexivity|reflexivity|]. rewrite (iou_entry_value l t r b l' t' r' b' W H W' H').
  unfold interior in E. cbn [box nth] in E. unfold area. cbn [box nth].
  rewrite (overlap_interval l r l' r' a0 a2 WI), (overlap_interval t b t' b' a1 a3 HI); auto.
  - intros y. pose proof (proj1 (E ((a0 + a2) / 2) ((a1 + a3) / 2)) ltac:(repeat split; lra)) as M. specialize (E ((a0 + a2) / 2) y). split; intros Q.
    + destruct E as [E _]. destruct E; [split; [split; lra|exact Q]|]. tauto.
    + destruct E as [_ E]. apply E. tauto.
  - intros x. pose proof (proj1 (E ((a0 + a2) / 2) ((a1 + a3) / 2)) ltac:(repeat split; lra)) as M. specialize (E x ((a1 + a3) / 2)). split; intros Q.
    + destruct E as [E _]. destruct E; [split; [exact Q|split; lra]|]. tauto.
    + destruct E as [_ E]. apply E. tauto.
Qed.
(** Degenerate boxes: 0/0. *)
Lemma iou_degenerate x y : @iou RNum [box x y x y] [box x y x y] = Ret [[DNaN]].
Proof.
  rewrite iou_pair by reflexivity. unfold iou_entry, box_area. rewrite !nmax_R, !nmin_R. cbn [box nth].
  unfold fdiv. cbn [neqb RNum nsub nadd nmul n0]. rewrite (Rmin_left x x), (Rmin_left y y), (Rmax_left x x), (Rmax_left y y) by apply Rle_refl.
  replace (x - x) with 0 by ring. replace (y - y) with 0 by ring. rewrite (Rmax_left 0 0) by apply Rle_refl.
  destruct (reqb_spec (0 * 0 + 0 * 0 - 0 * 0) 0) as [E|E]; [|exfalso; apply E; ring].
  destruct (reqb_spec (0 * 0) 0) as [F|F]; [reflexivity|]. exfalso. apply F. ring.
Qed.

(** ** C48 *)
Section Keypoints.
Variables (n d : nat) (dthr sthr : R).
Definition votes (m : points RNum) (ds ls : list R) : list bool :=
  map2 andb (map2 andb (map (fun row => Rltb (norm2 row) dthr) m) (above sthr ds)) (above sthr ls).
Lemma votes_nth a : forall b n ds ls i, shaped n d a -> shaped n d b -> length ds = n -> length ls = n -> (i < n)%nat ->
  (nth i (votes (diff a b) ds ls) false = true <-> keypoint_match d dthr sthr a b ds ls i).
Proof.
  induction a as [|r a IH]; intros [|s b] n' ds ls i A B D L Hi.
  - destruct A as [<- _]. cbn in Hi. lia.
  - destruct A as [<- _]. destruct B as [B _]. discriminate.
  - destruct B as [<- _]. destruct A as [A _]. discriminate.
  - apply shaped_cons in A as (k & -> & Lr & A). apply shaped_cons in B as (k' & E & Ls & B). injection E as <-.
    destruct ds as [|x ds]; [discriminate|]. destruct ls as [|y ls]; [discriminate|].
    unfold votes. rewrite diff_cons. cbn [map above]. rewrite !map2_cons.
    destruct i as [|i].
    + cbn [nth]. unfold keypoint_match, point_euclidean, entry. cbn [nth]. rewrite (row_euclidean d r s Lr Ls).
      rewrite !andb_true_iff, !rltb_true. split; [intros [[E1 E2] E3]; exact (conj E1 (conj E2 E3))|intros (E1 & E2 & E3); exact (conj (conj E1 E2) E3)].
    + cbn [nth]. apply (IH b k ds ls i A B); cbn in *; lia.
Qed.
Lemma votes_length a b ds ls : shaped n d a -> shaped n d b -> length ds = n -> length ls = n -> length (votes (diff a b) ds ls) = n.
Proof.
  intros A B D L. unfold votes, above.
  assert (E : length (map (fun row => Rltb (norm2 row) dthr) (diff a b)) = n) by (rewrite map_length; exact (diff_length _ _ _ _ A B)).
  rewrite !map2_length; rewrite ?map2_length; rewrite ?map_length in *; congruence.
Qed.
Lemma count_how_many (l : list bool) : how_many (length l) (fun i => nth i l false = true) (count_occ bool_dec l true).
Proof.
  exists (filter (fun i => nth i l false) (seq 0 (length l))). split; [|split].
  - apply NoDup_filter, seq_NoDup.
  - intros i. rewrite filter_In, in_seq. intuition lia.
  - induction l as [|x l IH]; auto. cbn [length seq filter count_occ]. change (nth 0 (x :: l) false) with x.
    assert (E : length (filter (fun i => nth i (x :: l) false) (seq 1 (length l))) = count_occ bool_dec l true).
    { rewrite <- seq_shift, <- IH. generalize (seq 0 (length l)). intros q. induction q as [|j q IHq]; auto.
      cbn [map filter]. change (nth (S j) (x :: l) false) with (nth j l false).
      destruct (nth j l false); cbn [length]; rewrite IHq; reflexivity. }
    destruct x; cbn [length].
    + rewrite E. destruct (bool_dec true true); congruence.
    + rewrite E. destruct (bool_dec false true); [discriminate|reflexivity].
Qed.
Lemma how_many_unique m P Q k k' : (forall i, (i < m)%nat -> (P i <-> Q i)) -> how_many m P k -> how_many m Q k' -> k = k'.
Proof.
  intros E (l & N & I & <-) (l' & N' & I' & <-). apply Nat.le_antisymm; apply NoDup_incl_length; auto; intros i Hi.
  - apply I in Hi as [H1 H2]. apply I'. split; auto. apply E; auto.
  - apply I' in Hi as [H1 H2]. apply I. split; auto. apply E; auto.
Qed.
Lemma how_many_le m (P Q : nat -> Prop) k k' : (forall i, (i < m)%nat -> P i -> Q i) -> how_many m P k -> how_many m Q k' -> (k <= k')%nat.
Proof.
  intros E (l & N & I & <-) (l' & N' & I' & <-). apply NoDup_incl_length; auto; intros i Hi.
  apply I in Hi as [H1 H2]. apply I'. split; auto.
Qed.
Lemma how_many_ext m P Q k : (forall i, (i < m)%nat -> (P i <-> Q i)) -> how_many m P k -> how_many m Q k.
Proof.
  intros E (l & N & I & L). exists l. split; auto. split; auto. intros i. rewrite I. split; intros [A B]; split; auto; apply E; auto.
Qed.
Lemma voting_value a b ds ls : shaped n d a -> shaped n d b -> length ds = n -> length ls = n ->
  exists k, how_many n (keypoint_match d dthr sthr a b ds ls) k /\
  keypoints_voting_arrays dthr sthr a b (Some ds) (Some ls) = Ret (@DFin RNum (1 / (1 + INR k))).
Proof.
  intros A B D L. exists (count_occ bool_dec (votes (diff a b) ds ls) true). split.
  - eapply how_many_ext; [|rewrite <- (votes_length a b ds ls A B D L) at 1; apply count_how_many].
    intros i Hi. cbv beta. apply (votes_nth a b n ds ls i A B D L Hi).
  - unfold keypoints_voting_arrays. rewrite (shaped_sub _ _ _ _ A B).
    assert (E : length (map (fun row => Rltb (norm2 row) dthr) (diff a b)) = n) by (rewrite map_length; exact (diff_length _ _ _ _ A B)).
    cbv zeta. rewrite E, D, L, Nat.eqb_refl. reflexivity.
Qed.
End Keypoints.
Lemma vote_bounds k : 0 < 1 / (1 + INR k) <= 1 /\ (1 / (1 + INR k) = 1 <-> k = O).
Proof.
  pose proof (pos_INR k) as P. unfold Rdiv. rewrite Rmult_1_l. split; [split|split].
  - apply Rinv_0_lt_compat. lra.
  - rewrite <- Rinv_1. apply Rinv_le_contravar; lra.
  - intros E. apply (f_equal Rinv) in E. rewrite Rinv_inv in E. rewrite Rinv_1 in E. apply INR_eq. cbn. lra.
  - intros ->. cbn. rewrite Rplus_0_r. apply Rinv_1.
Qed.
Lemma vote_mono k k' : (k <= k')%nat -> 1 / (1 + INR k') <= 1 / (1 + INR k).
Proof.
  intros H. apply le_INR in H. pose proof (pos_INR k). unfold Rdiv. rewrite !Rmult_1_l. apply Rinv_le_contravar; lra.
Qed.
Lemma vote_zero m P : how_many m P 0 <-> forall i, (i < m)%nat -> ~ P i.
Proof.
  split.
  - intros (l & _ & I & L) i Hi HP. destruct l; [|discriminate]. destruct (proj2 (I i) (conj Hi HP)).
  - intros N. exists []. split; [constructor|]. split; auto. intros i. split; [intros []|]. intros [H1 H2]. exact (N i H1 H2).
Qed.

(** ** C49 *)
Section Normalized.
Variables (height width : R).
Hypotheses (hpos : 0 < height) (wpos : 0 < width).
Lemma normalize_pair x y : normalize_row width height [x; y] = Ret [@DFin RNum (x / width); @DFin RNum (y / height)].
Proof.
  unfold normalize_row, fdiv. cbn [neqb RNum n0]. destruct (reqb_spec width 0); [lra|]. destruct (reqb_spec height 0); [lra|]. reflexivity.
Qed.
Definition scaled (row : list R) : R := sqrt ((nth 0 row 0 / width) ^ 2 + (nth 1 row 0 / height) ^ 2).
Definition row_norm (row : list (dval RNum)) : dval RNum := dsqrt (dsum (map dsquare row)).
Lemma rows_value m : Forall (fun row => @length R row = 2%nat) m ->
  exists rows, map_result (normalize_row width height) m = Ret rows /\ map row_norm rows = map (fun row => @DFin RNum (scaled row)) m.
Proof.
  induction 1 as [|row m H F (rows & E1 & E2)].
  - exists []. split; reflexivity.
  - destruct row as [|x [|y [|? ?]]]; try discriminate H.
    eexists. split; [cbn [map_result]; rewrite normalize_pair, E1; reflexivity|]. cbn [map]. rewrite E2. f_equal.
    unfold row_norm, scaled. cbn [map dsquare dsum fold_right dadd dsqrt nth]. do 2 f_equal.
    change ((x / width) * (x / width) + ((y / height) * (y / height) + 0) = (x / width) ^ 2 + (y / height) ^ 2). ring.
Qed.
Lemma dsum_fin l : dsum (map (@DFin RNum) l) = @DFin RNum (rsum l).
Proof. induction l as [|x l IH]; auto. cbn [map dsum fold_right]. unfold dsum in IH. rewrite IH. reflexivity. Qed.
Lemma dmean_fin l : l <> [] -> dmean (map (@DFin RNum) l) = @DFin RNum (rsum l / INR (length l)).
Proof.
  intros H. unfold dmean. rewrite dsum_fin, map_length. destruct l; [congruence|]. reflexivity.
Qed.
Lemma normalized_value n a b : (0 < n)%nat -> shaped n 2 a -> shaped n 2 b ->
  normalized_mean_euclidean_arrays height width a b = Ret (@DFin RNum (rsum (map scaled (diff a b)) / INR n)).
Proof.
  intros Hn A B. unfold normalized_mean_euclidean_arrays. rewrite (shaped_sub _ _ _ _ A B).
  assert (F : Forall (fun row => @length R row = 2%nat) (diff a b)).
  { clear Hn. revert n b A B. induction a as [|r a IH]; intros n [|s b] A B; try constructor.
    - apply shaped_cons in A as (k & -> & Lr & A). apply shaped_cons in B as (k' & E & Ls & B). exact (eq_trans (vsubl_length r s (eq_trans Lr (eq_sym Ls))) Lr).
    - apply shaped_cons in A as (k & -> & Lr & A). apply shaped_cons in B as (k' & E & Ls & B). injection E as <-. exact (IH k b A B). }
  destruct (rows_value _ F) as (rows & E1 & E2). rewrite E1. fold row_norm. 
  change (Ret (dmean (map row_norm rows)) = Ret (@DFin RNum (rsum (map scaled (diff a b)) / INR n))). rewrite E2.
  rewrite <- (map_map scaled (@DFin RNum)).
  assert (L : length (map scaled (diff a b)) = n) by (rewrite map_length; exact (diff_length _ _ _ _ A B)).
  apply (f_equal Ret). rewrite dmean_fin by (intros Z; rewrite Z in L; cbn in L; lia).
  exact (f_equal (fun k => @DFin RNum (rsum (map scaled (diff a b)) / INR k)) L).
Qed.
Lemma normalized_bounds n a b : (0 < n)%nat -> shaped n 2 a -> shaped n 2 b -> inside_image height width a -> inside_image height width b ->
  exists x, normalized_mean_euclidean_arrays height width a b = Ret (@DFin RNum x) /\ 0 <= x <= sqrt 2.
Proof.
  intros Hn A B IA IB. eexists. split; [apply (normalized_value n a b Hn A B)|].
  assert (P : 0 < INR n) by (apply lt_0_INR; exact Hn).
  assert (Q : 0 <= rsum (map scaled (diff a b)) <= INR n * sqrt 2).
  { clear Hn P. revert n b A B IB. induction a as [|r a IH]; intros n [|s b] A B IB.
    - destruct A as [<- _]. cbn. lra.
    - destruct A as [<- _]. destruct B as [B _]. discriminate.
    - destruct B as [<- _]. destruct A as [A _]. discriminate.
    - apply shaped_cons in A as (k & -> & Lr & A). apply shaped_cons in B as (k' & E & Ls & B). injection E as <-.
      inversion IA; subst. inversion IB; subst. specialize (IH H2 k b A B H4). rewrite diff_cons. cbn [map]. rewrite rsum_cons, S_INR.
      assert (S0 : 0 <= scaled (vsubl r s) <= sqrt 2).
      { split; [apply sqrt_pos|]. apply sqrt_le_1_alt.
        destruct r as [|x [|y [|? ?]]]; try discriminate Lr. destruct s as [|x' [|y' [|? ?]]]; try discriminate Ls.
        unfold vsubl. rewrite !map2_cons. cbn [nth] in *. 
        assert (X : forall u m, 0 < m -> - m <= u <= m -> (u / m) ^ 2 <= 1).
        { clear. intros u m M U. assert (V : -1 <= u / m <= 1).
          { split; apply Rmult_le_reg_r with m; auto; unfold Rdiv; rewrite Rmult_assoc, Rinv_l; lra. }
          nra. }
        pose proof (X (x - x') width wpos ltac:(lra)). pose proof (X (y - y') height hpos ltac:(lra)). lra. }
      lra. }
  split.
  - unfold Rdiv. apply Rmult_le_pos; [lra|]. apply Rlt_le, Rinv_0_lt_compat, P.
  - apply Rmult_le_reg_r with (INR n); auto. unfold Rdiv. rewrite Rmult_assoc, Rinv_l by lra. lra.
Qed.
Lemma normalized_corners : normalized_mean_euclidean_arrays height width [[0; 0]] [[width; height]] = Ret (@DFin RNum (sqrt 2)).
Proof.
  rewrite (normalized_value 1); [|lia|split; auto|split; auto]. do 2 f_equal. unfold diff. rewrite map2_cons. unfold map2 at 2. cbn [combine map].
  rewrite !map2_cons. rewrite rsum_cons, rsum_nil. unfold scaled. cbn [nth INR]. 
  replace ((0 - width) / width) with (-1) by (field; lra). replace ((0 - height) / height) with (-1) by (field; lra).
  replace ((-1) ^ 2 + (-1) ^ 2) with 2 by ring. field.
Qed.
End Normalized.

(** ** C50 *)
Section Names.
Context {FO : filter_ops RNum}.
Variable cdist : string -> list (list RNum) -> list (list RNum) -> result (list (list (dval RNum))).
Lemma existsb_names name l : existsb (String.eqb name) l = true <-> In name l.
Proof.
  rewrite existsb_exists. split.
  - intros (x & I & E). apply String.eqb_eq in E as ->. exact I.
  - intros I. exists name. split; auto. apply String.eqb_refl.
Qed.
Lemma lookup_none {A} name (t : list (string * A)) : ~ In name (map fst t) -> lookup name t = None.
Proof.
  induction t as [|[k v] t IH]; intros H; auto. cbn in *. destruct (String.eqb_spec name k) as [->|E]; [exfalso; auto|]. apply IH. auto.
Qed.
Lemma unknown_name name : ~ In name (scalar_names ++ scipy_names ++ vectorized_names) -> @get_distance_by_name FO cdist name = Raise EValueError.
Proof.
  intros H. unfold get_distance_by_name. rewrite !in_app_iff in H.
  rewrite lookup_none; [|cbn in *; intuition auto].
  destruct (existsb (String.eqb name) scipy_functions) eqn:E.
  - apply existsb_names in E. exfalso. apply H. right. left. exact E.
  - rewrite lookup_none; [reflexivity|]. cbn in *. intuition auto.
Qed.
Lemma scipy_name name : In name scipy_names -> @get_distance_by_name FO cdist name = Ret (VectorizedDistance (cdist name)).
Proof. cbn. intros H. repeat (destruct H as [<-|H]; [reflexivity|]); destruct H. Qed.
End Names.

(** ** Statements about detections and objects *)
Section Api.
Context {FO : filter_ops RNum}.
Lemma voting_facts (dist_thr score_thr : R) n d (det : detection RNum) (o : oview FO) ds ls :
  shaped n d (d_points det) -> shaped n d (estimate (v_obj o)) ->
  d_scores det = Some ds -> d_scores (v_last o) = Some ls -> length ds = n -> length ls = n ->
  exists k x, how_many n (keypoint_match d dist_thr score_thr (d_points det) (estimate (v_obj o)) ds ls) k /\
  keypoints_voting_distance dist_thr score_thr (VDet det) o = Ret (@DFin RNum x) /\
  x = 1 / (1 + INR k) /\ 0 < x <= 1 /\
  (x = 1 <-> forall i, (i < n)%nat -> ~ keypoint_match d dist_thr score_thr (d_points det) (estimate (v_obj o)) ds ls i).
Proof.
  intros A B D L Ld Ll. destruct (voting_value n d dist_thr score_thr _ _ ds ls A B Ld Ll) as (k & H & E).
  exists k, (1 / (1 + INR k)). split; [exact H|]. split; [unfold keypoints_voting_distance; rewrite D, L; exact E|].
  split; [reflexivity|]. destruct (vote_bounds k) as [V1 V2]. split; [exact V1|]. rewrite V2, <- vote_zero. split.
  - intros ->. exact H.
  - intros Z. exact (how_many_unique n _ _ k 0 (fun i _ => iff_refl _) H Z).
Qed.
Lemma voting_monotone (dist_thr score_thr : R) n d (det det' : detection RNum) (o o' : oview FO) ds ls ds' ls' (x x' : R) :
  shaped n d (d_points det) -> shaped n d (estimate (v_obj o)) ->
  d_scores det = Some ds -> d_scores (v_last o) = Some ls -> length ds = n -> length ls = n ->
  shaped n d (d_points det') -> shaped n d (estimate (v_obj o')) ->
  d_scores det' = Some ds' -> d_scores (v_last o') = Some ls' -> length ds' = n -> length ls' = n ->
  (forall i, (i < n)%nat -> keypoint_match d dist_thr score_thr (d_points det) (estimate (v_obj o)) ds ls i ->
                            keypoint_match d dist_thr score_thr (d_points det') (estimate (v_obj o')) ds' ls' i) ->
  keypoints_voting_distance dist_thr score_thr (VDet det) o = Ret (@DFin RNum x) ->
  keypoints_voting_distance dist_thr score_thr (VDet det') o' = Ret (@DFin RNum x') -> x' <= x.
Proof.
  intros A B D L Ld Ll A' B' D' L' Ld' Ll' M X X'.
  destruct (voting_facts dist_thr score_thr n d det o ds ls A B D L Ld Ll) as (k & y & H & E & -> & _).
  destruct (voting_facts dist_thr score_thr n d det' o' ds' ls' A' B' D' L' Ld' Ll') as (k' & y' & H' & E' & -> & _).
  pose proof (eq_trans (eq_sym E) X) as Q. pose proof (eq_trans (eq_sym E') X') as Q'. injection Q as <-. injection Q' as <-.
  apply vote_mono. exact (how_many_le n _ _ k k' M H H').
Qed.
Lemma voting_no_scores (dist_thr score_thr : R) (det : detection RNum) (o : oview FO) :
  map (@length R) (d_points det) = map (@length R) (estimate (v_obj o)) -> d_scores det = None ->
  keypoints_voting_distance dist_thr score_thr (VDet det) o = Raise ETypeError.
Proof.
  intros S D. unfold keypoints_voting_distance, keypoints_voting_arrays. rewrite D. unfold array_sub.
  apply same_shape_iff in S. rewrite S. reflexivity.
Qed.
Lemma normalized_refuted (height width : R) : 0 < height -> 0 < width -> exists a b (x : R),
  shaped 1 2 a /\ shaped 1 2 b /\ inside_image height width a /\ inside_image height width b /\
  normalized_mean_euclidean_arrays height width a b = Ret (@DFin RNum x) /\ ~ x <= 1.
Proof.
  intros H W. exists [[0; 0]], [[width; height]], (sqrt 2).
  split; [split; [reflexivity|repeat constructor]|]. split; [split; [reflexivity|repeat constructor]|].
  split; [constructor; [cbn; lra|constructor]|]. split; [constructor; [cbn; lra|constructor]|].
  split; [apply normalized_corners; auto|]. intros E. rewrite <- sqrt_1 in E. apply sqrt_le_0 in E; lra.
Qed.
Lemma names_facts cdist (name : string) :
  (name = "frobenius"%string -> @get_distance_by_name FO cdist name = Ret (ScalarDistance frobenius)) /\
  (name = "mean_euclidean"%string -> @get_distance_by_name FO cdist name = Ret (ScalarDistance mean_euclidean)) /\
  (name = "mean_manhattan"%string -> @get_distance_by_name FO cdist name = Ret (ScalarDistance mean_manhattan)) /\
  (In name vectorized_names -> @get_distance_by_name FO cdist name = Ret (VectorizedDistance (@iou RNum))) /\
  (In name scipy_names -> @get_distance_by_name FO cdist name = Ret (VectorizedDistance (cdist name))) /\
  (~ In name (scalar_names ++ scipy_names ++ vectorized_names) -> @get_distance_by_name FO cdist name = Raise EValueError).
Proof.
  split; [intros ->; reflexivity|]. split; [intros ->; reflexivity|]. split; [intros ->; reflexivity|].
  split; [intros [<-|[<-|[]]]; reflexivity|]. split; [apply scipy_name|apply unknown_name].
Qed.
Lemma constructor_name rnd cdist (a : @targs RNum FO) name :
  a_distance a = DName name -> ~ In name (scalar_names ++ scipy_names ++ vectorized_names) ->
  tracker_init rnd (get_distance_by_name cdist) a = Raise EValueError.
Proof. intros A H. unfold tracker_init. rewrite A, unknown_name by exact H. reflexivity. Qed.
End Api.

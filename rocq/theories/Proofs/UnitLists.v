(** Lists and matrices for C93. *)
From Coq Require Import ZArith List Arith Bool Lia.
From Verif Require Import Model.Num Model.Base Model.Matching Model.Filter Model.Tracker Spec.UnitSpec Proofs.NumLaws Proofs.MatchingProofs.
Import ListNotations.

Section E.
Context {A B : Type} (f : nat -> A -> B).
Lemma em_length l : forall k, length (enum_map f k l) = length l.
Proof. induction l; intros k; cbn; auto. Qed.
Lemma em_app l l' : forall k, enum_map f k (l ++ l') = enum_map f k l ++ enum_map f (k + length l) l'.
Proof. induction l as [|x l IH]; intros k; cbn; [rewrite Nat.add_0_r; reflexivity|]. rewrite IH. f_equal. f_equal. f_equal. lia. Qed.
Lemma em_firstn n : forall l k, firstn n (enum_map f k l) = enum_map f k (firstn n l).
Proof. induction n as [|n IH]; intros [|x l] k; cbn; auto. f_equal. apply IH. Qed.
Lemma em_skipn n : forall l k, skipn n (enum_map f k l) = enum_map f (k + n) (skipn n l).
Proof.
  induction n as [|n IH]; intros [|x l] k; cbn; rewrite ?Nat.add_0_r; auto. rewrite IH. f_equal. lia.
Qed.
Lemma em_nth_error l : forall k i, nth_error (enum_map f k l) i = option_map (f (k + i)) (nth_error l i).
Proof.
  induction l as [|x l IH]; intros k i; [destruct i; reflexivity|]. destruct i as [|i]; cbn; [rewrite Nat.add_0_r; reflexivity|].
  rewrite IH. replace (S k + i) with (k + S i) by lia. reflexivity.
Qed.
End E.
Lemma em_ext {A B} (f g : nat -> A -> B) l : forall k, (forall i x, k <= i < k + length l -> f i x = g i x) -> enum_map f k l = enum_map g k l.
Proof.
  induction l as [|x l IH]; intros k H; cbn; auto. f_equal; [apply H; cbn; lia|]. apply IH. intros i y Hi. apply H. cbn. lia.
Qed.
Lemma em_shift {A B} (f : nat -> A -> B) n l : forall k, enum_map f (n + k) l = enum_map (fun i => f (n + i)) k l.
Proof. induction l as [|x l IH]; intros k; cbn; auto. f_equal. rewrite <- IH. f_equal. lia. Qed.
Lemma em_mask_assign {A B} (f : nat -> A -> B) : forall mask src dst k,
  mask_assign mask (enum_map f k src) (enum_map f k dst) = enum_map f k (mask_assign mask src dst).
Proof. induction mask as [|m mask IH]; intros [|s src] [|d dst] k; cbn; auto. rewrite IH. destruct m; reflexivity. Qed.
Lemma em_mask_fill {A B} (f : nat -> A -> B) v v' : (forall k, f k v = v') -> forall mask dst k,
  mask_fill mask v' (enum_map f k dst) = enum_map f k (mask_fill mask v dst).
Proof. intros E. induction mask as [|m mask IH]; intros [|d dst] k; cbn; auto. rewrite IH. destruct m; [rewrite E|]; reflexivity. Qed.
Lemma em_map2 {A B C A' B' C'} (f : nat -> A -> A') (g : nat -> B -> B') (h : nat -> C -> C') (op : A -> B -> C) (op' : A' -> B' -> C') :
  (forall k a b, op' (f k a) (g k b) = h k (op a b)) -> forall l l' k, map2 op' (enum_map f k l) (enum_map g k l') = enum_map h k (map2 op l l').
Proof.
  intros E. induction l as [|a l IH]; intros [|b l'] k; cbn; auto. unfold map2 in *. cbn. rewrite E. f_equal. apply IH.
Qed.

(* ---- arrays ---- *)
Section Arrays.
Context {N : Num}.
Variable dim : nat.
Hypothesis Hdim : 0 < dim.

Definition rows (p : points N) : Prop := Forall (fun row => length row = dim) p.
Lemma rows_length p : rows p -> length (flatten p) = dim * length p.
Proof. unfold flatten. induction 1 as [|row p Hr _ IH]; cbn; [lia|]. rewrite app_length, IH, Hr. lia. Qed.
Lemma chunks_rows p : rows p -> forall fuel, length (flatten p) <= fuel -> chunks_fuel fuel dim (flatten p) = p.
Proof.
  unfold flatten. induction 1 as [|row p Hr Hp IH]; intros fuel Hf; cbn in *; [destruct fuel; reflexivity|].
  rewrite app_length in Hf. destruct fuel as [|fuel]; [exfalso; lia|]. destruct row as [|x row]; [cbn in Hr; lia|]. cbn [chunks_fuel app].
  change (x :: row ++ concat p) with ((x :: row) ++ concat p). rewrite firstn_app, skipn_app. rewrite Hr, Nat.sub_diag. cbn [firstn skipn]. rewrite app_nil_r.
  rewrite firstn_all2 by lia. rewrite skipn_all2 by lia. cbn [app]. f_equal. apply IH. cbn [length] in *. lia.
Qed.
Lemma reshape_flatten p : rows p -> reshape_rows dim (flatten p) = p.
Proof. intros H. apply chunks_rows; auto. Qed.
Lemma chunks_ok n : forall fuel (v : list N), length v = dim * n -> length v <= fuel -> rows (chunks_fuel fuel dim v) /\ concat (chunks_fuel fuel dim v) = v /\ length (chunks_fuel fuel dim v) = n.
Proof.
  induction n as [|n IH]; intros fuel v Hl Hf.
  - assert (v = []) as -> by (destruct v; auto; cbn in Hl; lia). destruct fuel; repeat split; constructor.
  - destruct v as [|x v]; [cbn in Hl; lia|]. destruct fuel as [|fuel]; [cbn in Hf; lia|]. cbn [chunks_fuel].
    destruct (IH fuel (skipn dim (x :: v))) as (I1 & I2 & I3); [rewrite skipn_length; lia|rewrite skipn_length; lia|].
    split; [constructor; [rewrite firstn_length; lia|exact I1]|]. split; [cbn [concat]; rewrite I2; apply firstn_skipn|cbn [length]; rewrite I3; reflexivity].
Qed.
Lemma reshape_ok n (v : list N) : length v = dim * n -> rows (reshape_rows dim v) /\ flatten (reshape_rows dim v) = v /\ length (reshape_rows dim v) = n.
Proof. intros H. apply chunks_ok; auto. Qed.

(** Entry by entry, in the array and in the flattened array. *)
Lemma flatten_enum {M : Num} (f : nat -> N -> M) p : rows p -> forall n,
  flatten (map (enum_map f 0) p) = enum_map (fun j => f (j mod dim)) (dim * n) (flatten p).
Proof.
  unfold flatten. induction 1 as [|row p Hr Hp IH]; intros n; cbn; auto. rewrite em_app. f_equal.
  - replace (dim * n) with (dim * n + 0) by lia. rewrite em_shift. apply em_ext. intros i x Hi.
    replace (dim * n + i) with (i + n * dim) by lia. rewrite Nat.mod_add by lia. rewrite Nat.mod_small by lia. reflexivity.
  - rewrite (IH (S n)). f_equal. lia.
Qed.
Lemma reshape_enum {M : Num} (f : nat -> N -> M) (v : list N) n : length v = dim * n ->
  reshape_rows dim (enum_map (fun j => f (j mod dim)) 0 v) = map (enum_map f 0) (reshape_rows dim v).
Proof.
  intros L. destruct (reshape_ok n v L) as (R1 & R2 & _). set (p := reshape_rows dim v) in *. clearbody p. subst v.
  pose proof (flatten_enum f p R1 0) as E. rewrite Nat.mul_0_r in E. rewrite <- E. clear E L.
  assert (R' : Forall (fun row => length row = dim) (map (enum_map f 0) p)).
  { rewrite Forall_map. eapply Forall_impl; [|exact R1]. intros row H. rewrite em_length. exact H. }
  clear R1. remember (map (enum_map f 0) p) as q. clear Heqq p. unfold reshape_rows.
  (* as [reshape_flatten], for the other numbers *)
  assert (G : forall fuel, length (flatten q) <= fuel -> chunks_fuel fuel dim (flatten q) = q).
  { unfold flatten. induction R' as [|row q Hr Hq IH]; intros fuel Hf; cbn in *; [destruct fuel; reflexivity|].
    rewrite app_length in Hf. destruct fuel as [|fuel]; [exfalso; lia|]. destruct row as [|x row]; [cbn in Hr; lia|]. cbn [chunks_fuel app].
    change (x :: row ++ concat q) with ((x :: row) ++ concat q). rewrite firstn_app, skipn_app. rewrite Hr, Nat.sub_diag. cbn [firstn skipn]. rewrite app_nil_r.
    rewrite firstn_all2 by lia. rewrite skipn_all2 by lia. cbn [app]. f_equal. apply IH. cbn [length] in *. lia. }
  apply G. reflexivity.
Qed.
End Arrays.

Lemma concat_map' {A B} (f : A -> B) l : concat (map (map f) l) = map f (concat l).
Proof. induction l; cbn; auto. rewrite map_app. congruence. Qed.
(* ---- the matching ---- *)
Section M.
Context {N : Num} (laws : NumLaws N).
Notation dv := (dval N).
Variable dh : dv -> dv.
Hypothesis U : distance_unit dh.
Variables thr fill fill' : dv.
Let thr' := dh thr.
Hypothesis Hf : dis_nan fill = false /\ dltb fill thr = false.
Hypothesis Hf' : dis_nan fill' = false /\ dltb fill' thr' = false.

(** A cell still holds a distance, or has been filled. *)
Definition crel (x x' : dv) : Prop := x' = dh x \/ (dltb x thr = false /\ dltb x' thr' = false).
Lemma crel_thr x x' : crel x x' -> dltb x' thr' = dltb x thr.
Proof. intros [->|[A B]]; [apply (du_order _ U)|congruence]. Qed.
(** Comparison with a cell below the threshold. *)
Lemma crel_lt x x' y y' : crel x x' -> crel y y' -> dltb x thr = true -> dltb y' x' = dltb y x.
Proof.
  intros X Y L. destruct X as [->|[A _]]; [|congruence]. destruct Y as [->|[B B']]; [apply (du_order _ U)|].
  assert (X' : dltb (dh x) thr' = true) by (unfold thr'; rewrite (du_order _ U); exact L).
  destruct (dltb y x) eqn:E1; [exfalso; rewrite (dltb_trans laws y x thr E1 L) in B; discriminate|].
  destruct (dltb y' (dh x)) eqn:E2; [exfalso; rewrite (dltb_trans laws y' (dh x) thr' E2 X') in B'; discriminate|]. reflexivity.
Qed.
Definition cell (x x' : dv) : Prop := crel x x' /\ dis_nan x = false /\ dis_nan x' = false.
Lemma cell_fill : cell fill fill'.
Proof. destruct Hf, Hf'. split; [right|]; auto. Qed.
Lemma cell_min x x' y y' : cell x x' -> cell y y' -> cell (dmin x y) (dmin x' y').
Proof.
  intros (X & Nx & Nx') (Y & Ny & Ny'). unfold dmin.
  assert (Z : dis_nan (if dltb y x then y else x) = false /\ dis_nan (if dltb y' x' then y' else x') = false) by (destruct (dltb y x), (dltb y' x'); auto).
  split; [|exact Z]. clear Z. destruct (dltb x thr) eqn:Ex.
  - rewrite (crel_lt _ _ _ _ X Y Ex). destruct (dltb y x); auto.
  - assert (Ex' : dltb x' thr' = false) by (rewrite (crel_thr _ _ X); exact Ex). destruct (dltb y thr) eqn:Ey.
    + assert (Ey' : dltb y' thr' = true) by (rewrite (crel_thr _ _ Y); exact Ey).
      assert (P : forall a b t : dv, dis_nan a = false -> dltb b t = true -> dltb a t = false -> dltb b a = true).
      { intros a b t Na H1 H2. destruct (dltb_cotrans laws b t a Na H1) as [H|H]; auto. congruence. }
      rewrite (P x y thr), (P x' y' thr'); auto.
    + assert (Ey' : dltb y' thr' = false) by (rewrite (crel_thr _ _ Y); exact Ey). right. destruct (dltb y x), (dltb y' x'); auto.
Qed.
Lemma cells_min l l' : Forall2 cell l l' -> forall x x', cell x x' -> cell (list_min x l) (list_min x' l').
Proof. induction 1 as [|y y' l l' Hy _ IH]; intros x x' Hx; cbn; auto. apply IH, cell_min; auto. Qed.
Lemma cells_argmin l l' : Forall2 cell l l' -> forall x x' b b' k, cell x x' -> (dltb x thr = true -> b = b') -> dltb (list_min x l) thr = true ->
  argmin_from x b k l = argmin_from x' b' k l'.
Proof.
  induction 1 as [|y y' l l' Hy _ IH]; intros x x' b b' k Hx Hb Hm; cbn in *; auto.
  pose proof (cell_min _ _ _ _ Hx Hy) as Hc. destruct Hx as (X & Nx & Nx'). destruct Hy as (Y & Ny & Ny'). unfold dmin in *.
  destruct (dltb x thr) eqn:Ex.
  - pose proof (crel_lt _ _ _ _ X Y Ex) as E. rewrite E in *. destruct (dltb y x); apply IH; auto.
  - assert (Ex' : dltb x' thr' = false) by (rewrite (crel_thr _ _ X); exact Ex). destruct (dltb y thr) eqn:Ey.
    + assert (Ey' : dltb y' thr' = true) by (rewrite (crel_thr _ _ Y); exact Ey).
      assert (P : forall a b t : dv, dis_nan a = false -> dltb b t = true -> dltb a t = false -> dltb b a = true).
      { intros a0 b0 t Na H1 H2. destruct (dltb_cotrans laws b0 t a0 Na H1) as [H|H]; auto. congruence. }
      rewrite (P x y thr) in * by auto. rewrite (P x' y' thr') in * by auto. apply IH; auto.
    + assert (Ey' : dltb y' thr' = false) by (rewrite (crel_thr _ _ Y); exact Ey).
      destruct (dltb y x), (dltb y' x'); apply IH; auto; intros; congruence.
Qed.
Lemma F2_len {A B} (R : A -> B -> Prop) l l' : Forall2 R l l' -> length l = length l'.
Proof. induction 1; cbn; auto. Qed.
Lemma F2_concat {A B} (R : A -> B -> Prop) l l' : Forall2 (Forall2 R) l l' -> Forall2 R (concat l) (concat l').
Proof. induction 1; cbn; auto. apply Forall2_app; auto. Qed.
Lemma F2_nth {A B} (R : A -> B -> Prop) l l' d d' i : R d d' -> Forall2 R l l' -> R (nth i l d) (nth i l' d').
Proof. intros D F. revert i. induction F; intros [|i]; cbn; auto. Qed.
Lemma F2_set_nth {A B} (R : A -> B -> Prop) v v' : R v v' -> forall l l', Forall2 R l l' -> forall i, Forall2 R (set_nth i v l) (set_nth i v' l').
Proof. intros V l l' F. induction F; intros [|i]; cbn; auto. Qed.
Lemma F2_const {A B} (R : A -> B -> Prop) v v' : R v v' -> forall C D (P : C -> D -> Prop) l l', Forall2 P l l' -> Forall2 R (map (fun _ => v) l) (map (fun _ => v') l').
Proof. intros V C D P l l' F. induction F; cbn; auto. Qed.
Definition cells (M M' : matrix N) : Prop := Forall2 (Forall2 cell) M M'.
Lemma cells_loop fuel : forall M M' ds os, cells M M' -> match_loop fuel fill thr M ds os = match_loop fuel fill' thr' M' ds os.
Proof.
  induction fuel as [|fuel IH]; intros M M' ds os H; pose proof (F2_concat _ _ _ H) as F; cbn [match_loop].
  - destruct F as [|x x' l l' Hx Hl]; auto. pose proof (cells_min l l' Hl x x' Hx) as (C & _). rewrite (crel_thr _ _ C). reflexivity.
  - assert (A : forall x l, concat M = x :: l -> dltb (list_min x l) thr = true -> argmin (concat M') = argmin (concat M)).
    { intros x l E L. rewrite E in *. inversion F as [|? x' ? l' Hx Hl E1 E2]; subst. unfold argmin. symmetry. apply cells_argmin; auto. }
    assert (Nc : ncols M' = ncols M) by (destruct H as [|r r' M0 M0' Hr]; cbn; auto; symmetry; eapply F2_len; eauto).
    destruct (concat M) as [|x l] eqn:E, (concat M') as [|x' l'] eqn:E'; try solve [inversion F]; auto.
    inversion F as [|? ? ? ? Hx Hl]; subst. pose proof (cells_min l l' Hl x x' Hx) as (C & _). rewrite (crel_thr _ _ C).
    destruct (dltb (list_min x l) thr) eqn:L; auto. rewrite (A x l eq_refl L), Nc. apply IH.
    assert (Row : cells (fill_row (argmin (x :: l) / ncols M) fill M) (fill_row (argmin (x :: l) / ncols M) fill' M')).
    { unfold fill_row. apply F2_set_nth; [|exact H]. eapply F2_const; [exact cell_fill|]. apply (F2_nth _ _ _ [] []); [constructor|exact H]. }
    unfold fill_col. revert Row. generalize (fill_row (argmin (x :: l) / ncols M) fill M) (fill_row (argmin (x :: l) / ncols M) fill' M').
    intros a a' Row. induction Row; cbn; constructor; auto. apply F2_set_nth; auto. exact cell_fill.
Qed.
End M.

Section M2.
Context {N : Num} (laws : NumLaws N).
Variable dh : dval N -> dval N.
Hypothesis U : distance_unit dh.
Lemma match_in_units (rnd rnd' : dval N -> dval N) thr (M : matrix N) : can_stop rnd thr -> can_stop rnd' (dh thr) -> existsb dis_nan (concat M) = false ->
  match_dets_and_objs rnd' (dh thr) (map (map dh) M) = match_dets_and_objs rnd thr M.
Proof.
  intros S1 S2 Hn. unfold match_dets_and_objs. assert (L : length (concat (map (map dh) M)) = length (concat M)) by (rewrite concat_map', map_length; reflexivity).
  rewrite L. symmetry. apply (cells_loop laws dh U thr (rnd (dsucc thr)) (rnd' (dsucc (dh thr))) S1 S2).
  assert (Hn' : forall x, In x (concat M) -> dis_nan x = false).
  { intros x Hx. destruct (dis_nan x) eqn:E; auto. assert (existsb dis_nan (concat M) = true) by (apply existsb_exists; eauto). congruence. }
  clear - U Hn'. induction M as [|r M IH]; constructor.
  - assert (Hr : forall x, In x r -> dis_nan x = false) by (intros x Hx; apply Hn'; cbn; apply in_or_app; auto). clear - U Hr. induction r as [|x r IH]; constructor.
    + split; [left; reflexivity|]. rewrite (du_nan _ U). split; apply Hr; left; reflexivity.
    + apply IH. intros y Hy. apply Hr. right. exact Hy.
  - apply IH. intros x Hx. apply Hn'. cbn. apply in_or_app. auto.
Qed.
Lemma existsb_map_ext {A B} (f : A -> bool) (g : B -> bool) (h : A -> B) l : (forall x, g (h x) = f x) -> existsb g (map h l) = existsb f l.
Proof. intros E. induction l; cbn; auto. rewrite E, IHl. reflexivity. Qed.
Lemma nan_in_units (M : matrix N) : existsb dis_nan (concat (map (map dh) M)) = existsb dis_nan (concat M).
Proof. rewrite concat_map'. apply existsb_map_ext, (du_nan _ U). Qed.
Lemma truth_in_units (M : matrix N) : existsb dtruth (concat (map (map dh) M)) = existsb dtruth (concat M).
Proof. rewrite concat_map'. apply existsb_map_ext, (du_zero _ U). Qed.
Lemma list_min_in_units l : forall x, list_min (dh x) (map dh l) = dh (list_min x l).
Proof. induction l as [|y l IH]; intros x; cbn; auto. unfold dmin. rewrite (du_order _ U). destruct (dltb y x); apply IH. Qed.
Lemma col_min_in_units (M : matrix N) j : dh DNaN = DNaN -> col_min (map (map dh) M) j = dh (col_min M j).
Proof.
  intros E. unfold col_min. assert (X : map (fun r => nth j r DNaN) (map (map dh) M) = map dh (map (fun r => nth j r DNaN) M)).
  { rewrite !map_map. apply map_ext. intros r. rewrite <- E at 1. apply map_nth. }
  rewrite X. destruct (map (fun r => nth j r DNaN) M) as [|x l]; cbn; auto. apply list_min_in_units.
Qed.
Lemma entry_in_units (M : matrix N) i j : dh DNaN = DNaN -> entry (map (map dh) M) i j = dh (entry M i j).
Proof.
  intros E. unfold entry. change (@nil (dval N)) with (map dh []) at 1. rewrite map_nth. rewrite <- E at 1. apply map_nth.
Qed.
Lemma unit_nan : dh DNaN = DNaN.
Proof. pose proof (du_nan _ U DNaN) as E. destruct (dh DNaN); auto; discriminate. Qed.
End M2.

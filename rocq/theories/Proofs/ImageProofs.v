From Coq Require Import ZArith QArith Qround Bool Arith List Lia Lqa.
From Verif Require Import Model.Num Model.Base Model.Tracker Model.CameraMotion Model.Images Spec.ImageSpec.
Import ListNotations.
Local Open Scope nat_scope.

(* ---- slices ---- *)
Lemma nth_error_firstn {A} n (l : list A) k : nth_error (firstn n l) k = if k <? n then nth_error l k else None.
Proof.
  revert l k; induction n; intros [|a l] [|k]; simpl; auto.
  - destruct (_ <? _); auto.
  - rewrite IHn. reflexivity.
Qed.
Lemma nth_error_skipn {A} n (l : list A) k : nth_error (skipn n l) k = nth_error l (n + k).
Proof. revert l; induction n; intros [|a l]; simpl; auto. destruct k; auto. Qed.
Lemma nth_error_slice {A} a b (l : list A) k :
  nth_error (slice a b l) k =
  if k <? clamp_index (length l) b - clamp_index (length l) a then nth_error l (clamp_index (length l) a + k) else None.
Proof. unfold slice. rewrite nth_error_firstn, nth_error_skipn. reflexivity. Qed.
Lemma clamp_le n i : clamp_index n i <= n \/ (i < 0)%Z.
Proof. unfold clamp_index. destruct (Z.ltb_spec i 0); [right; auto|left; lia]. Qed.
Lemma clamp_le' n i : clamp_index n i <= n.
Proof. unfold clamp_index. destruct (Z.ltb_spec i 0); lia. Qed.
Lemma slice_length {A} a b (l : list A) : length (slice a b l) = clamp_index (length l) b - clamp_index (length l) a.
Proof. unfold slice. rewrite firstn_length, skipn_length. pose proof (clamp_le' (length l) b). lia. Qed.
Lemma assign_slice_some {A} a b (v l : list A) : length v = clamp_index (length l) b - clamp_index (length l) a ->
  exists l', assign_slice a b v l = Some l' /\ length l' = length l /\
   forall k, nth_error l' k = if (clamp_index (length l) a <=? k) && (k <? clamp_index (length l) a + length v)
                              then nth_error v (k - clamp_index (length l) a) else nth_error l k.
Proof.
  intros E. unfold assign_slice. rewrite (proj2 (Nat.eqb_eq _ _) E). eexists. split; [reflexivity|].
  set (s := clamp_index (length l) a) in *. set (e := clamp_index (length l) b) in *.
  pose proof (clamp_le' (length l) a). pose proof (clamp_le' (length l) b). fold s in H. fold e in H0.
  split. { rewrite !app_length, firstn_length, skipn_length. lia. }
  intros k. destruct (Nat.leb_spec s k); simpl.
  - rewrite nth_error_app2 by (rewrite firstn_length; lia). rewrite firstn_length, Nat.min_l by lia.
    destruct (Nat.ltb_spec k (s + length v)).
    + apply nth_error_app1; lia.
    + rewrite nth_error_app2 by lia. rewrite nth_error_skipn. f_equal. lia.
  - rewrite nth_error_app1 by (rewrite firstn_length; lia). rewrite nth_error_firstn.
    rewrite (proj2 (Nat.ltb_lt _ _)) by lia. reflexivity.
Qed.

Lemma assign_rows_some x0 x1 w src dst :
  length src = length dst -> Forall (fun r => length r = w) dst ->
  Forall (fun r => length r = clamp_index w x1 - clamp_index w x0) src ->
  exists out, assign_rows x0 x1 src dst = Some out /\ length out = length dst /\ Forall (fun r => length r = w) out /\
   forall k r v, nth_error dst k = Some r -> nth_error src k = Some v ->
     exists r', nth_error out k = Some r' /\ assign_slice x0 x1 v r = Some r'.
Proof.
  revert dst; induction src as [|v src IH]; intros [|r dst] L D S; simpl in L; try discriminate.
  - exists []. repeat split; auto. intros [|k]; discriminate.
  - inversion D; subst. inversion S; subst. destruct (IH dst) as (out & E & Lo & Fo & K); auto.
    destruct (assign_slice_some x0 x1 v r) as (r' & Er & Lr & _); auto.
    exists (r' :: out). simpl. rewrite Er, E. split; [reflexivity|]. split; [f_equal; exact Lo|].
    split; [constructor; [exact Lr|exact Fo]|].
    intros [|k] r0 v0 A B; simpl in *.
      * inversion A; inversion B; subst. eauto.
      * eauto.
Qed.

Lemma Forall_nth_error {A} (P : A -> Prop) l k x : Forall P l -> nth_error l k = Some x -> P x.
Proof. intros F E. rewrite Forall_forall in F. eapply F, nth_error_In, E. Qed.
Lemma Forall_of_nth {A} (P : A -> Prop) l : (forall k x, nth_error l k = Some x -> P x) -> Forall P l.
Proof. intros H. apply Forall_forall. intros x I. destruct (In_nth_error _ _ I) as [k E]. eauto. Qed.

Lemma px_rows_nat rows y x : px_rows rows (Z.of_nat y) (Z.of_nat x) = match nth_error rows y with Some r => nth_error r x | None => None end.
Proof. unfold px_rows. rewrite (proj2 (Z.leb_le _ _)) by lia. rewrite (proj2 (Z.leb_le _ _)) by lia. simpl. rewrite !Nat2Z.id. reflexivity. Qed.

(** Pasting a block of the right size. *)
Lemma paste_spec y0 y1 x0 x1 src im :
  valid_image im ->
  let ys := clamp_index (im_h im) y0 in let ye := clamp_index (im_h im) y1 in
  let xs := clamp_index (im_w im) x0 in let xe := clamp_index (im_w im) x1 in
  length src = ye - ys -> Forall (fun r => length r = xe - xs) src ->
  exists out, paste y0 y1 x0 x1 src im = Some out /\ valid_image out /\ im_h out = im_h im /\ im_w out = im_w im /\
    forall y x, y < im_h im -> x < im_w im ->
      px out (Z.of_nat y) (Z.of_nat x) =
      if (ys <=? y) && (y <? ye) && ((xs <=? x) && (x <? xe))
      then px_rows src (Z.of_nat (y - ys)) (Z.of_nat (x - xs)) else px im (Z.of_nat y) (Z.of_nat x).
Proof.
  intros [Vh Vw] ys ye xs xe Ls Fs. unfold paste.
  set (sub := slice y0 y1 (im_rows im)).
  assert (Lsub : length sub = ye - ys) by (unfold sub; rewrite slice_length, Vh; reflexivity).
  assert (Fsub : Forall (fun r => length r = im_w im) sub).
  { apply Forall_of_nth. intros k r E. unfold sub in E. rewrite nth_error_slice in E.
    destruct (_ <? _); [|discriminate]. exact (Forall_nth_error _ _ _ _ Vw E). }
  destruct (assign_rows_some x0 x1 (im_w im) src sub) as (part & Ep & Lp & Fp & Kp); auto; try lia.
  rewrite Ep. destruct (assign_slice_some y0 y1 part (im_rows im)) as (rows & Er & Lr & Kr).
  { rewrite Vh. fold ys ye. lia. }
  rewrite Er. simpl. eexists. split; [reflexivity|]. rewrite Vh in *. fold ys ye in Kr.
  split.
  { split; simpl; [lia|]. apply Forall_of_nth. intros k r E. rewrite Kr in E.
    destruct (_ && _); [exact (Forall_nth_error _ _ _ _ Fp E)|exact (Forall_nth_error _ _ _ _ Vw E)]. }
  split; [reflexivity|]. split; [reflexivity|]. intros y x Hy Hx. unfold px. simpl. rewrite !px_rows_nat, Kr.
  destruct (Nat.leb_spec ys y) as [Y1|Y1]; simpl; [|reflexivity].
  destruct (Nat.ltb_spec y (ys + length part)) as [Y2|Y2]; destruct (Nat.ltb_spec y ye) as [Y3|Y3]; simpl; try lia; [|reflexivity].
  assert (Ed : nth_error sub (y - ys) = nth_error (im_rows im) y).
  { unfold sub. rewrite nth_error_slice, Vh. fold ys ye. rewrite (proj2 (Nat.ltb_lt _ _)) by lia. f_equal. lia. }
  destruct (nth_error (im_rows im) y) as [r|] eqn:Er0; [|apply nth_error_None in Er0; lia].
  destruct (nth_error src (y - ys)) as [v|] eqn:Ev; [|apply nth_error_None in Ev; lia].
  destruct (Kp _ _ _ Ed Ev) as (r' & En & Ea). rewrite En.
  assert (Lv := Forall_nth_error _ _ _ _ Fs Ev). assert (Lr0 := Forall_nth_error _ _ _ _ Vw Er0). simpl in Lv, Lr0.
  destruct (assign_slice_some x0 x1 v r) as (r'' & Ea' & _ & K). { rewrite Lr0. exact Lv. }
  rewrite Ea in Ea'. inversion Ea'; subst r''. rewrite K, Lr0. fold xs.
  destruct (Nat.leb_spec xs x); simpl; [|reflexivity].
  destruct (Nat.ltb_spec x (xs + length v)); destruct (Nat.ltb_spec x xe); simpl; try lia; reflexivity.
Qed.

Lemma crop_length y0 y1 x0 x1 im : valid_image im ->
  length (crop y0 y1 x0 x1 im) = clamp_index (im_h im) y1 - clamp_index (im_h im) y0 /\ Forall (fun r => length r = clamp_index (im_w im) x1 - clamp_index (im_w im) x0) (crop y0 y1 x0 x1 im).
Proof.
  intros [Vh Vw]. unfold crop. rewrite map_length, slice_length, Vh. split; [reflexivity|].
  apply Forall_of_nth. intros k r E. rewrite nth_error_map in E.
  destruct (nth_error (slice y0 y1 (im_rows im)) k) as [r0|] eqn:E0; [|discriminate]. simpl in E. inversion E; subst.
  rewrite slice_length. rewrite nth_error_slice in E0. destruct (_ <? _); [|discriminate].
  rewrite (Forall_nth_error _ _ _ _ Vw E0). reflexivity.
Qed.
Lemma crop_px y0 y1 x0 x1 im y x : valid_image im ->
  y < clamp_index (im_h im) y1 - clamp_index (im_h im) y0 -> x < clamp_index (im_w im) x1 - clamp_index (im_w im) x0 ->
  px_rows (crop y0 y1 x0 x1 im) (Z.of_nat y) (Z.of_nat x) =
  px im (Z.of_nat (clamp_index (im_h im) y0 + y)) (Z.of_nat (clamp_index (im_w im) x0 + x)).
Proof.
  intros [Vh Vw] Hy Hx. unfold px. rewrite !px_rows_nat. unfold crop. rewrite nth_error_map, nth_error_slice, Vh.
  rewrite (proj2 (Nat.ltb_lt _ _)) by lia.
  destruct (nth_error (im_rows im) (clamp_index (im_h im) y0 + y)) as [r|] eqn:E; simpl; [|reflexivity].
  rewrite nth_error_slice, (Forall_nth_error _ _ _ _ Vw E), (proj2 (Nat.ltb_lt _ _)) by lia. reflexivity.
Qed.

(** One axis of the cropping: [p0] is the position of the frame of size [n] on a background of size [m]. *)
Lemma axis (n m : nat) (p0 : Z) :
  let s := clamp_index m (Z.max p0 0) in let e := clamp_index m (Z.max (p0 + Z.of_nat n) 0) in
  let fs := clamp_index n (Z.max (- p0) 0) in
  let fe := clamp_index n (Z.max (Z.min (Z.of_nat m - p0) (p0 + Z.of_nat n - p0)) 0) in
  fe - fs = e - s /\ forall k, k < m -> ((s <= k < e) <-> (0 <= Z.of_nat k - p0 < Z.of_nat n)%Z) /\ ((s <= k < e) -> Z.of_nat (fs + (k - s)) = (Z.of_nat k - p0)%Z).
Proof.
  assert (C : forall n i, (0 <= i)%Z -> clamp_index n i = Nat.min (Z.to_nat i) n).
  { intros. unfold clamp_index. destruct (Z.ltb_spec i 0); [lia|reflexivity]. }
  intros s e fs fe. unfold s, e, fs, fe. rewrite !C by lia. clear. split; [lia|].
  intros k Hk. split; [split; lia|lia].
Qed.

Lemma fade_image_valid f im : valid_image im -> valid_image (fade_image f im).
Proof.
  intros [Vh Vw]. split; simpl; [rewrite map_length; exact Vh|]. apply Forall_of_nth. intros k r E. rewrite nth_error_map in E.
  destruct (nth_error _ _) as [r0|] eqn:E0; [|discriminate]. simpl in E. inversion E; subst. rewrite map_length.
  exact (Forall_nth_error _ _ _ _ Vw E0).
Qed.
Lemma fade_image_px f im y x : px (fade_image f im) y x = option_map (map (fade f)) (px im y x).
Proof.
  unfold px, px_rows. simpl. destruct (_ && _); [|reflexivity]. rewrite nth_error_map.
  destruct (nth_error _ _); simpl; [|reflexivity]. apply nth_error_map.
Qed.
Lemma black_valid h w ch : valid_image (black h w ch).
Proof. split; simpl; [apply repeat_length|]. apply Forall_forall. intros r I. apply repeat_spec in I. subst. apply repeat_length. Qed.
Lemma nth_error_repeat' {A} (a : A) n k : k < n -> nth_error (repeat a n) k = Some a.
Proof. revert k; induction n; intros [|k] H; simpl; try lia; auto. apply IHn; lia. Qed.
Lemma black_px h w ch y x : inside (black h w ch) y x -> px (black h w ch) y x = Some (repeat 0%Z ch).
Proof.
  intros [A B]. simpl in *. rewrite <- (Z2Nat.id y), <- (Z2Nat.id x) by lia. unfold px. rewrite px_rows_nat.
  simpl. rewrite !nth_error_repeat' by lia. reflexivity.
Qed.

(* ---- rounding ---- *)
Lemma round_comp p q : (p == q)%Q -> round_half_even p = round_half_even q.
Proof.
  intros E. unfold round_half_even. rewrite (Qfloor_comp _ _ E).
  assert (X : (p - inject_Z (Qfloor q) ?= 1 # 2)%Q = (q - inject_Z (Qfloor q) ?= 1 # 2)%Q) by (rewrite E; reflexivity).
  rewrite X. reflexivity.
Qed.
Lemma round_Z z : round_half_even (inject_Z z) = z.
Proof.
  unfold round_half_even. rewrite Qfloor_Z. replace (inject_Z z - inject_Z z ?= 1 # 2)%Q with Lt; [reflexivity|].
  symmetry. apply Qlt_alt. setoid_replace (inject_Z z - inject_Z z)%Q with 0%Q by ring. reflexivity.
Qed.
Lemma round_nonneg q : (0 <= q)%Q -> (0 <= round_half_even q)%Z.
Proof.
  intros H. assert (F : (0 <= Qfloor q)%Z). { change 0%Z with (Qfloor 0). apply Qfloor_resp_le, H. }
  unfold round_half_even. destruct (_ ?= _)%Q; [destruct (Z.even _)| |]; lia.
Qed.

(* ---- one call ---- *)
Definition start_of (c : fixed_camera) (channels : nat) (frame : image) : image :=
  match fc_background c with
  | Some b => fade_image (fc_factor c) b
  | None => black (Z.to_nat (canvas_h (fc_scale c) frame)) (Z.to_nat (canvas_w (fc_scale c) frame)) channels
  end.
Definition good_camera (c : fixed_camera) : Prop :=
  (0 <= fc_scale c)%Q /\ forall b, fc_background c = Some b -> valid_image b.
Lemma start_ok c ch f : good_camera c -> fc_start c ch f = Ret (start_of c ch f) /\ valid_image (start_of c ch f).
Proof.
  intros [S V]. unfold fc_start, start_of. destruct (fc_background c) as [b|] eqn:E.
  - split; [reflexivity|]. apply fade_image_valid. auto.
  - fold (canvas_w (fc_scale c) f) (canvas_h (fc_scale c) f).
    assert (forall n : nat, (0 <= round_half_even (inject_Z (Z.of_nat n) * fc_scale c))%Z).
    { intros n. apply round_nonneg. apply Qmult_le_0_compat; [|exact S]. change 0%Q with (inject_Z 0). rewrite <- Zle_Qle. lia. }
    unfold canvas_w, canvas_h. rewrite (proj2 (Z.ltb_ge _ _)) by auto. rewrite (proj2 (Z.ltb_ge _ _)) by auto. simpl.
    split; [reflexivity|apply black_valid].
Qed.

Lemma adjust_spec c ch f mx my : good_camera c -> valid_image f ->
  let b := start_of c ch f in
  exists B, adjust_frame c ch f (Some (translation [mx : QNum; my : QNum])) = (MkFC (fc_scale c) (fc_factor c) (Some B), Ret B) /\ valid_image B /\ im_h B = im_h b /\ im_w B = im_w b /\ let bh := Z.of_nat (im_h b) in let bw := Z.of_nat (im_w b) in let s := (f, (mx, my)) in
    forall y x, inside b y x ->
      (covers bh bw s y x -> px B y x = shows bh bw s y x) /\ (~ covers bh bw s y x -> px B y x = px b y x).
Proof.
  intros G V b. destruct (start_ok c ch f G) as [Es Vb]. fold b in Es, Vb. clearbody b.
  unfold adjust_frame, frame_corner, leaves_canvas. rewrite Es. cbn [ct_rel_to_abs translation map map2 combine fst snd].
  set (H := Z.of_nat (im_h f)). set (W := Z.of_nat (im_w f)). set (BH := Z.of_nat (im_h b)). set (BW := Z.of_nat (im_w b)).
  assert (Ex : round_half_even (nsub (inject_Z (BW / 2 - W / 2) : QNum) (mx : QNum)) = corner_x BW f mx).
  { unfold corner_x. fold W. apply round_comp. apply Qred_correct. }
  assert (Ey : round_half_even (nsub (inject_Z (BH / 2 - H / 2) : QNum) (my : QNum)) = corner_y BH f my).
  { unfold corner_y. fold H. apply round_comp. apply Qred_correct. }
  unfold map2. cbn [combine map fst snd]. rewrite Ex, Ey. clear Ex Ey.
  set (x0 := corner_x BW f mx). set (y0 := corner_y BH f my).
  destruct (axis (im_h f) (im_h b) y0) as [Ay Ky]. destruct (axis (im_w f) (im_w b) x0) as [Ax Kx]. fold H BH in Ay, Ky. fold W BW in Ax, Kx.
  match goal with |- context [if ?cc then ?A else ?B] =>
    assert (EB : (if cc then A else B) = A) by
     (destruct cc eqn:Ec; [reflexivity|];
      apply orb_false_elim in Ec; destruct Ec as [Ec Ec4]; apply orb_false_elim in Ec; destruct Ec as [Ec Ec3];
      apply orb_false_elim in Ec; destruct Ec as [Ec1 Ec2];
      apply Z.ltb_ge in Ec1; apply Z.ltb_ge in Ec2; apply Z.ltb_ge in Ec3; apply Z.ltb_ge in Ec4;
      f_equal; try lia; f_equal; lia) end.
  rewrite EB. clear EB.
  destruct (crop_length (Z.max (- y0) 0) (Z.max (Z.min (BH - y0) (y0 + H - y0)) 0)
     (Z.max (- x0) 0) (Z.max (Z.min (BW - x0) (x0 + W - x0)) 0) f V) as [Lc Fc].
  rewrite Ay in Lc. rewrite Ax in Fc.
  destruct (paste_spec (Z.max y0 0) (Z.max (y0 + H) 0) (Z.max x0 0) (Z.max (x0 + W) 0) _ b Vb Lc Fc) as (B & EB & VB & Hh & Hw & K).
  rewrite EB. exists B. split; [reflexivity|]. split; [exact VB|]. split; [exact Hh|]. split; [exact Hw|].
  intros y x [Iy Ix]. assert (Ny : Z.to_nat y < im_h b) by (clear - Iy; lia). assert (Nx : Z.to_nat x < im_w b) by (clear - Ix; lia).
  specialize (K (Z.to_nat y) (Z.to_nat x) Ny Nx).
  specialize (Ky (Z.to_nat y) Ny). specialize (Kx (Z.to_nat x) Nx).
  rewrite !(Z2Nat.id y), !(Z2Nat.id x) in K by (clear - Iy Ix; lia). rewrite (Z2Nat.id y) in Ky by (clear - Iy; lia).
  rewrite (Z2Nat.id x) in Kx by (clear - Ix; lia). destruct Ky as [Ky1 Ky2]. destruct Kx as [Kx1 Kx2].
  set (ys := clamp_index (im_h b) (Z.max y0 0)) in *. set (ye := clamp_index (im_h b) (Z.max (y0 + H) 0)) in *.
  set (xs := clamp_index (im_w b) (Z.max x0 0)) in *. set (xe := clamp_index (im_w b) (Z.max (x0 + W) 0)) in *.
  assert (EQ : (ys <=? Z.to_nat y) && (Z.to_nat y <? ye) && ((xs <=? Z.to_nat x) && (Z.to_nat x <? xe)) = true <->
               covers BH BW (f, (mx, my)) y x).
  { unfold covers, inside. simpl. fold x0 y0 H W. rewrite !andb_true_iff, !Nat.leb_le, !Nat.ltb_lt. tauto. }
  unfold covers in *. split; intros C.
  - rewrite (proj2 EQ C) in K. rewrite K. rewrite <- EQ in C. rewrite !andb_true_iff, !Nat.leb_le, !Nat.ltb_lt in C.
    destruct C as [[C1 C2] [C3 C4]].
    rewrite crop_px; [|exact V|rewrite Ay; clear - C1 C2; lia|rewrite Ax; clear - C3 C4; lia].
    rewrite (Ky2 (conj C1 C2)), (Kx2 (conj C3 C4)). reflexivity.
  - match type of K with _ = (if ?c then _ else _) => destruct c eqn:Ec end; [exfalso; apply C, EQ; reflexivity|exact K].
Qed.

(* ---- a film ---- *)
Lemma iter_r {A} (f : A -> A) k a : Nat.iter k f (f a) = Nat.iter (S k) f a.
Proof. induction k; simpl in *; [reflexivity|]. rewrite IHk. reflexivity. Qed.
Lemma faded_fade f k p : faded f k (map (fade f) p) = faded f (S k) p.
Proof. unfold faded. rewrite map_map. apply map_ext. intros v. apply (iter_r (fade f)). Qed.
Lemma faded_0 f p : faded f 0 p = p.
Proof. unfold faded. simpl. apply map_id. Qed.
Lemma option_map_ext' {A B} (f g : A -> B) o : (forall a, f a = g a) -> option_map f o = option_map g o.
Proof. intros H. destruct o; simpl; [rewrite H|]; reflexivity. Qed.

Lemma film_spec shots : forall c ch, good_camera c -> Forall (fun s => valid_image (fst s)) shots ->
  forall f0, (forall s, hd_error shots = Some s -> start_of c ch (fst s) = f0) -> shots <> [] ->
  exists bs, film c ch shots = Ret bs /\ length bs = length shots /\
  forall k B, nth_error bs k = Some B ->
    valid_image B /\ im_h B = im_h f0 /\ im_w B = im_w f0 /\
    let bh := Z.of_nat (im_h f0) in let bw := Z.of_nat (im_w f0) in
    forall y x, inside f0 y x ->
      (forall pre s post, firstn (S k) shots = pre ++ s :: post -> covers bh bw s y x ->
         (forall t, In t post -> ~ covers bh bw t y x) ->
         px B y x = option_map (faded (fc_factor c) (length post)) (shows bh bw s y x)) /\
      ((forall t, In t (firstn (S k) shots) -> ~ covers bh bw t y x) ->
         px B y x = option_map (faded (fc_factor c) k) (px f0 y x)).
Proof.
  induction shots as [|[f [mx my]] shots IH]; intros c ch G V f0 E0 NE; [contradiction|]. clear NE.
  inversion V as [|? ? Vf Vs]; subst. simpl in Vf.
  specialize (E0 _ eq_refl). simpl in E0.
  destruct (adjust_spec c ch f mx my G Vf) as (B1 & E1 & VB1 & Hh & Hw & K1). rewrite E0 in Hh, Hw, K1. simpl in K1.
  set (c1 := MkFC (fc_scale c) (fc_factor c) (Some B1)) in *.
  assert (G1 : good_camera c1). { split; [apply G|]. intros b Eb. inversion Eb; subst; exact VB1. }
  cbn [film]. rewrite E1.
  assert (BASE : forall y x, inside f0 y x ->
     (forall pre s post, [(f, (mx, my))] = pre ++ s :: post -> covers (Z.of_nat (im_h f0)) (Z.of_nat (im_w f0)) s y x ->
         (forall t, In t post -> ~ covers (Z.of_nat (im_h f0)) (Z.of_nat (im_w f0)) t y x) ->
         px B1 y x = option_map (faded (fc_factor c) (length post)) (shows (Z.of_nat (im_h f0)) (Z.of_nat (im_w f0)) s y x)) /\
      ((forall t, In t [(f, (mx, my))] -> ~ covers (Z.of_nat (im_h f0)) (Z.of_nat (im_w f0)) t y x) ->
         px B1 y x = option_map (faded (fc_factor c) 0) (px f0 y x))).
  { intros y x I. destruct (K1 y x I) as [KA KB]. split.
    - intros pre s post E C _. destruct pre as [|? [|]]; simpl in E; inversion E; subst. simpl.
      rewrite (KA C). rewrite (option_map_ext' _ (fun p => p)) by apply faded_0. destruct (shows _ _ _ _ _); reflexivity.
    - intros C. rewrite (KB (C _ (or_introl eq_refl))). rewrite (option_map_ext' _ (fun p => p)) by apply faded_0.
      destruct (px f0 y x); reflexivity. }
  destruct shots as [|s1 shots'].
  { simpl. exists [B1]. split; [reflexivity|]. split; [reflexivity|]. intros [|[|k]] B EB; try discriminate. simpl in EB. inversion EB; subst B.
    split; [exact VB1|]. split; [exact Hh|]. split; [exact Hw|]. exact BASE. }
  set (shots := s1 :: shots') in *.
  destruct (IH c1 ch G1 Vs (fade_image (fc_factor c) B1)) as (bs & Ef & Lf & Kf); [reflexivity|discriminate|].
  rewrite Ef. exists (B1 :: bs). split; [reflexivity|]. split; [simpl; f_equal; exact Lf|].
  intros [|k] B EB; cbn [nth_error] in EB.
  - inversion EB; subst B. split; [exact VB1|]. split; [exact Hh|]. split; [exact Hw|]. exact BASE.
  - destruct (Kf k B EB) as (VB & H1 & H2 & KK). simpl in H1, H2. rewrite Hh in H1. rewrite Hw in H2.
    split; [exact VB|]. split; [exact H1|]. split; [exact H2|]. intros y x I. simpl in KK. rewrite Hh, Hw in KK.
    assert (I1 : inside (fade_image (fc_factor c) B1) y x). { unfold inside in *. simpl. rewrite Hh, Hw. exact I. }
    destruct (KK y x I1) as [KA KB].
    assert (TAIL : (forall t, In t (firstn (S k) shots) -> ~ covers (Z.of_nat (im_h f0)) (Z.of_nat (im_w f0)) t y x) ->
       px B y x = option_map (faded (fc_factor c) (S k)) (px B1 y x)).
    { intros C. rewrite (KB C), fade_image_px. destruct (px B1 y x); simpl; [|reflexivity]. rewrite faded_fade. reflexivity. }
    change (firstn (S (S k)) ((f, (mx, my)) :: shots)) with ((f, (mx, my)) :: firstn (S k) shots).
    assert (Lk : length (firstn (S k) shots) = S k).
    { apply firstn_length_le. assert (nth_error bs k <> None) by (rewrite EB; discriminate). apply nth_error_Some in H. lia. }
    split.
    + intros [|p0 pre] s post E C NC.
      * simpl in E. inversion E as [[Es Ep]]. subst s post. rewrite (TAIL NC). match goal with |- context [length ?l] => replace (length l) with (S k) by (symmetry; exact Lk) end.
        destruct (BASE y x I) as [BA _]. rewrite (BA [] _ [] eq_refl C) by (intros ? []).
        simpl. rewrite (option_map_ext' (faded (fc_factor c) 0) (fun p => p)) by apply faded_0.
        destruct (shows _ _ _ _ _); reflexivity.
      * simpl in E. inversion E as [[Es Ep]]. exact (KA pre s post Ep C NC).
    + intros C. rewrite TAIL by (intros t It; apply C; right; exact It).
      destruct (BASE y x I) as [_ BB]. rewrite BB by (intros t [<-|[]]; apply C; left; reflexivity).
      rewrite (option_map_ext' (faded (fc_factor c) 0) (fun p => p)) by apply faded_0.
      destruct (px f0 y x); reflexivity.
Qed.

(** A new camera. *)
Lemma film_new scale att ch f m shots : (0 <= scale)%Q -> Forall (fun s => valid_image (fst s)) ((f, m) :: shots) ->
  let all := (f, m) :: shots in let bh := canvas_h scale f in let bw := canvas_w scale f in
  exists bs, film (fc_new scale att) ch all = Ret bs /\ length bs = length all /\
  forall k B, nth_error bs k = Some B ->
    valid_image B /\ Z.of_nat (im_h B) = bh /\ Z.of_nat (im_w B) = bw /\
    forall y x, inside B y x ->
      (forall pre s post, firstn (S k) all = pre ++ s :: post -> covers bh bw s y x ->
         (forall t, In t post -> ~ covers bh bw t y x) ->
         px B y x = option_map (faded (1 - att) (length post)) (shows bh bw s y x)) /\
      ((forall t, In t (firstn (S k) all) -> ~ covers bh bw t y x) -> px B y x = Some (repeat 0%Z ch)).
Proof.
  intros S V all bh bw.
  assert (P : forall n : nat, (0 <= round_half_even (inject_Z (Z.of_nat n) * scale))%Z).
  { intros n. apply round_nonneg. apply Qmult_le_0_compat; [|exact S]. change 0%Q with (inject_Z 0). rewrite <- Zle_Qle. lia. }
  assert (Ph : Z.of_nat (Z.to_nat bh) = bh) by (apply Z2Nat.id, P). assert (Pw : Z.of_nat (Z.to_nat bw) = bw) by (apply Z2Nat.id, P).
  destruct (film_spec all (fc_new scale att) ch) with (f0 := black (Z.to_nat bh) (Z.to_nat bw) ch) as (bs & E & L & K).
  - split; [exact S|discriminate].
  - exact V.
  - intros s Es. inversion Es; subst. reflexivity.
  - discriminate.
  - exists bs. split; [exact E|]. split; [exact L|]. intros k B EB. destruct (K k B EB) as (VB & Hh & Hw & KK).
    simpl in Hh, Hw, KK. rewrite Hh, Hw, Ph, Pw. split; [exact VB|]. split; [reflexivity|]. split; [reflexivity|].
    intros y x I. rewrite Ph, Pw in KK.
    assert (I0 : inside (black (Z.to_nat bh) (Z.to_nat bw) ch) y x). { unfold inside in *. simpl. rewrite Hh, Hw in I. exact I. }
    destruct (KK y x I0) as [KA KB]. split; [exact KA|]. intros C. rewrite (KB C). rewrite (black_px _ _ _ _ _ I0).
    simpl. f_equal. unfold faded. assert (Z0 : Nat.iter k (fade (1 - att)) 0%Z = 0%Z).
    { clear. induction k; simpl; [reflexivity|]. rewrite IHk. reflexivity. }
    clear - Z0. induction ch; simpl; congruence.
Qed.

(* ---- fading ---- *)
Lemma trunc_floor q : (0 <= q)%Q -> trunc q = Qfloor q.
Proof. intros H. unfold trunc. rewrite (proj2 (Qle_bool_iff 0 q) H). reflexivity. Qed.
Lemma inject_nonneg v : (0 <= v)%Z -> (0 <= inject_Z v)%Q.
Proof. intros. change 0%Q with (inject_Z 0). rewrite <- Zle_Qle. lia. Qed.
Lemma fade_bounds f v : (0 <= f <= 1)%Q -> (0 <= v)%Z -> (0 <= fade f v <= v)%Z.
Proof.
  intros [F0 F1] V. assert (P := Qmult_le_0_compat _ _ (inject_nonneg v V) F0). unfold fade. rewrite trunc_floor by exact P. split.
  - change 0%Z with (Qfloor 0). apply Qfloor_resp_le, P.
  - rewrite <- (Qfloor_Z v) at 2. apply Qfloor_resp_le. pose proof (inject_nonneg v V). nra.
Qed.
Lemma fade_less f v : (0 <= f)%Q -> (f < 1)%Q -> (0 < v)%Z -> (fade f v < v)%Z.
Proof.
  intros F0 F1 V. assert (P := Qmult_le_0_compat _ _ (inject_nonneg v (Z.lt_le_incl _ _ V)) F0). unfold fade. rewrite trunc_floor by exact P.
  pose proof (Qfloor_le (inject_Z v * f)) as L.
  assert (Q : (inject_Z v * f < inject_Z v)%Q). { assert (0 < inject_Z v)%Q by (change 0%Q with (inject_Z 0); rewrite <- Zlt_Qlt; lia). nra. }
  rewrite Zlt_Qlt. apply (Qle_lt_trans _ _ _ L Q).
Qed.
Lemma fade_one f v : (f == 1)%Q -> (0 <= v)%Z -> fade f v = v.
Proof.
  intros F V. unfold fade. rewrite trunc_floor by (rewrite F; pose proof (inject_nonneg v V); lra).
  rewrite (Qfloor_comp _ (inject_Z v)) by (rewrite F; ring). apply Qfloor_Z.
Qed.
Lemma faded_value f k v : (0 <= f <= 1)%Q -> (0 <= v)%Z ->
  (0 <= Nat.iter k (fade f) v <= v)%Z /\
  ((f < 1)%Q -> (v <= Z.of_nat k)%Z -> Nat.iter k (fade f) v = 0%Z) /\
  ((f == 1)%Q -> Nat.iter k (fade f) v = v).
Proof.
  intros F V. assert (B : forall k, (0 <= Nat.iter k (fade f) v <= v)%Z).
  { induction k0; simpl; [lia|]. pose proof (fade_bounds f _ F (proj1 IHk0)). lia. }
  split; [apply B|]. split.
  - intros L H. assert (X : forall k, (Nat.iter k (fade f) v <= Z.max 0 (v - Z.of_nat k))%Z).
    { induction k0; [simpl; lia|]. simpl Nat.iter. destruct (Z.eq_dec (Nat.iter k0 (fade f) v) 0) as [E|E].
      - rewrite E. pose proof (fade_bounds f 0 F). lia.
      - pose proof (fade_less f (Nat.iter k0 (fade f) v) (proj1 F) L) as Y. pose proof (B k0). lia. }
    pose proof (X k). pose proof (B k). lia.
  - intros E. induction k; simpl; [reflexivity|]. rewrite IHk. apply fade_one; assumption.
Qed.

(** Integral camera motion: positions of the world keep their place. *)
Lemma corner_int n bn (m : Z) : round_half_even (inject_Z (bn / 2 - n / 2) - inject_Z m) = (bn / 2 - n / 2 - m)%Z.
Proof.
  rewrite (round_comp _ (inject_Z (bn / 2 - n / 2 - m))); [apply round_Z|].
  unfold Z.sub. rewrite !inject_Z_plus, !inject_Z_opp. ring.
Qed.
Lemma round_near q : (Qabs.Qabs (q - inject_Z (round_half_even q)) <= 1 # 2)%Q.
Proof.
  unfold round_half_even. pose proof (Qfloor_le q) as A. pose proof (Qlt_floor q) as B. rewrite inject_Z_plus in B. set (f := Qfloor q) in *.
  change (inject_Z 1) with 1%Q in B. apply Qabs.Qabs_Qle_condition.
  destruct (Qcompare_spec (q - inject_Z f) (1 # 2)) as [C|C|C].
  - destruct (Z.even f); rewrite ?inject_Z_plus; change (inject_Z 1) with 1%Q; split; lra.
  - split; lra.
  - rewrite ?inject_Z_plus; change (inject_Z 1) with 1%Q; split; lra.
Qed.

(* ---- the warning ---- *)
Lemma corner_translation (b f : image) (mx my : Q) :
  frame_corner b f (translation [mx : QNum; my : QNum]) = Some (corner_y (Z.of_nat (im_h b)) f my, corner_x (Z.of_nat (im_w b)) f mx).
Proof.
  unfold frame_corner. cbn [ct_rel_to_abs translation map map2 combine fst snd]. unfold map2. cbn [combine map fst snd].
  unfold corner_x, corner_y. do 2 f_equal; apply round_comp, Qred_correct.
Qed.
Lemma leaves_iff (b f : image) (mx my : Q) : 0 < im_h f -> 0 < im_w f ->
  leaves_canvas b f (corner_y (Z.of_nat (im_h b)) f my) (corner_x (Z.of_nat (im_w b)) f mx) = true <->
  cropped (Z.of_nat (im_h b)) (Z.of_nat (im_w b)) (f, (mx, my)).
Proof.
  intros Hh Hw. unfold leaves_canvas, cropped, inside. cbn [fst snd].
  set (y0 := corner_y _ _ _). set (x0 := corner_x _ _ _). clearbody y0 x0. rewrite !orb_true_iff, !Z.ltb_lt. split.
  - intros [[[A|A]|A]|A].
    + exists 0%Z, 0%Z. lia.
    + exists 0%Z, 0%Z. lia.
    + exists (Z.of_nat (im_h f) - 1)%Z, 0%Z. lia.
    + exists 0%Z, (Z.of_nat (im_w f) - 1)%Z. lia.
  - intros (y & x & I & E). lia.
Qed.
Lemma warns_spec shots : forall c ch, good_camera c -> Forall (fun s => valid_image (fst s)) shots ->
  forall bh bw, (forall s, hd_error shots = Some s -> im_h (start_of c ch (fst s)) = bh /\ im_w (start_of c ch (fst s)) = bw) ->
  length (film_warns c ch shots) = length shots /\
  forall k w s, nth_error (film_warns c ch shots) k = Some w -> nth_error shots k = Some s -> 0 < im_h (fst s) -> 0 < im_w (fst s) ->
    (w = true <-> cropped (Z.of_nat bh) (Z.of_nat bw) s).
Proof.
  induction shots as [|[f [mx my]] shots IH]; intros c ch G V bh bw E0; [split; [reflexivity|intros [|k]; discriminate]|].
  inversion V as [|? ? Vf Vs]; subst. cbn [fst] in Vf. specialize (E0 _ eq_refl). cbn [fst] in E0. destruct E0 as [<- <-].
  destruct (adjust_spec c ch f mx my G Vf) as (B1 & E1 & VB1 & Hh & Hw & _).
  destruct (start_ok c ch f G) as [Es _]. cbn [film_warns]. rewrite E1. cbn [fst].
  destruct (IH (MkFC (fc_scale c) (fc_factor c) (Some B1)) ch) with (bh := im_h (start_of c ch f)) (bw := im_w (start_of c ch f)) as [L K].
  - split; [apply G|]. intros b Eb. inversion Eb; subst; exact VB1.
  - exact Vs.
  - intros s _. unfold start_of at 1 3. cbn [fc_background fade_image im_h im_w]. auto.
  - split; [cbn [length]; f_equal; exact L|]. intros [|k] w s Ew S P Q; cbn [nth_error] in *; [|eapply K; eauto].
    injection Ew as <-. injection S as <-. unfold adjust_warns. rewrite Es, corner_translation. apply leaves_iff; assumption.
Qed.
Lemma film_warning scale att ch f m shots : (0 <= scale)%Q -> Forall (fun s => valid_image (fst s)) ((f, m) :: shots) ->
  let all := (f, m) :: shots in let ws := film_warns (fc_new scale att) ch all in
  length ws = length all /\
  forall k w s, nth_error ws k = Some w -> nth_error all k = Some s -> 0 < im_h (fst s) -> 0 < im_w (fst s) ->
    (w = true <-> cropped (canvas_h scale f) (canvas_w scale f) s).
Proof.
  intros S V all ws.
  assert (P : forall n : nat, (0 <= round_half_even (inject_Z (Z.of_nat n) * scale))%Z).
  { intros n. apply round_nonneg. apply Qmult_le_0_compat; [|exact S]. change 0%Q with (inject_Z 0). rewrite <- Zle_Qle. lia. }
  destruct (warns_spec all (fc_new scale att) ch) with (bh := Z.to_nat (canvas_h scale f)) (bw := Z.to_nat (canvas_w scale f)) as [L K].
  - split; [exact S|discriminate].
  - exact V.
  - intros s Es. inversion Es; subst. split; reflexivity.
  - split; [exact L|]. intros k w s A B C D. specialize (K k w s A B C D). rewrite !Z2Nat.id in K by apply P. exact K.
Qed.

(* ---- negative scales ---- *)
Lemma round_negative q : (q < - (1 # 2))%Q -> (round_half_even q < 0)%Z.
Proof.
  intros H. pose proof (round_near q) as R. apply Qabs.Qabs_Qle_condition in R. rewrite Zlt_Qlt. change (inject_Z 0) with 0%Q. lra.
Qed.
Lemma film_negative scale att ch f m shots :
  (inject_Z (Z.of_nat (im_w f)) * scale < - (1 # 2) \/ inject_Z (Z.of_nat (im_h f)) * scale < - (1 # 2))%Q ->
  film (fc_new scale att) ch ((f, m) :: shots) = Raise EValueError.
Proof.
  intros H. destruct m as [mx my]. cbn [film]. unfold adjust_frame, fc_start. cbn [fc_background fc_new fc_scale].
  replace (_ || _)%bool with true; [reflexivity|]. symmetry. apply orb_true_iff.
  destruct H as [H|H]; apply round_negative in H; [left|right]; apply Z.ltb_lt; exact H.
Qed.

(* ---- get_cutout ---- *)
Lemma fold_max_spec l : forall a, let m := fold_left (fun m v => if Qlt_le_dec m v then v else m) l a in
  In m (a :: l) /\ forall x, In x (a :: l) -> (x <= m)%Q.
Proof.
  induction l as [|b l IH]; intros a; simpl.
  - split; [left; reflexivity|]. intros x [<-|[]]. apply Qle_refl.
  - destruct (Qlt_le_dec a b) as [L|L].
    + destruct (IH b) as [J H]. split; [right; exact J|]. intros x [<-|Hx]; [|apply H; exact Hx].
      apply Qlt_le_weak, (Qlt_le_trans _ _ _ L), H. left; reflexivity.
    + destruct (IH a) as [J H]. split; [destruct J; [left|right; right]; assumption|].
      intros x [<-|[<-|Hx]]; [apply H; left; reflexivity| |apply H; right; exact Hx].
      apply (Qle_trans _ _ _ L), H. left; reflexivity.
Qed.
Lemma fold_min_spec l : forall a, let m := fold_left (fun m v => if Qlt_le_dec v m then v else m) l a in
  In m (a :: l) /\ forall x, In x (a :: l) -> (m <= x)%Q.
Proof.
  induction l as [|b l IH]; intros a; simpl.
  - split; [left; reflexivity|]. intros x [<-|[]]. apply Qle_refl.
  - destruct (Qlt_le_dec b a) as [L|L].
    + destruct (IH b) as [J H]. split; [right; exact J|]. intros x [<-|Hx]; [|apply H; exact Hx].
      apply Qlt_le_weak. apply (Qle_lt_trans _ b); [apply H; left; reflexivity|exact L].
    + destruct (IH a) as [J H]. split; [destruct J; [left|right; right]; assumption|].
      intros x [<-|[<-|Hx]]; [apply H; left; reflexivity| |apply H; right; exact Hx].
      apply (Qle_trans _ a); [apply H; left; reflexivity|exact L].
Qed.
Lemma qmax_spec l : l <> [] -> exists m, qmaximum l = Some m /\ In m l /\ forall x, In x l -> (x <= m)%Q.
Proof. destruct l as [|a l]; [contradiction|]. intros _. eexists. split; [reflexivity|]. apply fold_max_spec. Qed.
Lemma qmin_spec l : l <> [] -> exists m, qminimum l = Some m /\ In m l /\ forall x, In x l -> (m <= x)%Q.
Proof. destruct l as [|a l]; [contradiction|]. intros _. eexists. split; [reflexivity|]. apply fold_min_spec. Qed.
Lemma trunc_nonneg q : (0 <= q)%Q -> (0 <= trunc q)%Z.
Proof. intros H. rewrite trunc_floor by exact H. change 0%Z with (Qfloor 0). apply Qfloor_resp_le, H. Qed.

(** With non-negative coordinates the cut-out is the part of the box inside the image. *)
Lemma cutout_spec points im : valid_image im -> points <> [] ->
  (forall p, In p points -> (0 <= fst p)%Q /\ (0 <= snd p)%Q) ->
  exists x0 x1 y0 y1 out, get_cutout points im = Ret out /\
    (In x0 (map fst points) /\ forall x, In x (map fst points) -> (x0 <= x)%Q) /\
    (In x1 (map fst points) /\ forall x, In x (map fst points) -> (x <= x1)%Q) /\
    (In y0 (map snd points) /\ forall y, In y (map snd points) -> (y0 <= y)%Q) /\
    (In y1 (map snd points) /\ forall y, In y (map snd points) -> (y <= y1)%Q) /\
    forall y x : Z, (0 <= y)%Z -> (0 <= x)%Z ->
      px_rows out y x = if (trunc y0 + y <? trunc y1)%Z && (trunc x0 + x <? trunc x1)%Z then px im (trunc y0 + y) (trunc x0 + x) else None.
Proof.
  intros V NE P.
  destruct (qmin_spec (map fst points)) as (x0 & Ex0 & X0); [destruct points; [contradiction|discriminate]|].
  destruct (qmax_spec (map fst points)) as (x1 & Ex1 & X1); [destruct points; [contradiction|discriminate]|].
  destruct (qmin_spec (map snd points)) as (y0 & Ey0 & Y0); [destruct points; [contradiction|discriminate]|].
  destruct (qmax_spec (map snd points)) as (y1 & Ey1 & Y1); [destruct points; [contradiction|discriminate]|].
  exists x0, x1, y0, y1. eexists. unfold get_cutout. rewrite Ex0, Ex1, Ey0, Ey1. split; [reflexivity|].
  split; [exact X0|]. split; [exact X1|]. split; [exact Y0|]. split; [exact Y1|].
  assert (NX : forall x, In x (map fst points) -> (0 <= x)%Q). { intros x I. apply in_map_iff in I. destruct I as (p & <- & I). apply (P p I). }
  assert (NY : forall x, In x (map snd points) -> (0 <= x)%Q). { intros x I. apply in_map_iff in I. destruct I as (p & <- & I). apply (P p I). }
  assert (Tx0 := trunc_nonneg x0 (NX _ (proj1 X0))). assert (Tx1 := trunc_nonneg x1 (NX _ (proj1 X1))).
  assert (Ty0 := trunc_nonneg y0 (NY _ (proj1 Y0))). assert (Ty1 := trunc_nonneg y1 (NY _ (proj1 Y1))).
  intros y x Hy Hx. clear - V Hy Hx Tx0 Tx1 Ty0 Ty1.
  set (a := trunc x0) in *. set (b := trunc x1) in *. set (c := trunc y0) in *. set (d := trunc y1) in *. clearbody a b c d.
  assert (C : forall n i, (0 <= i)%Z -> clamp_index n i = Nat.min (Z.to_nat i) n).
  { intros. unfold clamp_index. destruct (Z.ltb_spec i 0); [lia|reflexivity]. }
  rewrite <- (Z2Nat.id y), <- (Z2Nat.id x) by lia. set (y' := Z.to_nat y). set (x' := Z.to_nat x). clearbody x' y'. clear y x Hy Hx.
  unfold px. rewrite px_rows_nat. unfold crop. rewrite nth_error_map, nth_error_slice.
  destruct V as [Vh Vw]. rewrite Vh, !C by lia.
  replace (c + Z.of_nat y')%Z with (Z.of_nat (Z.to_nat c + y')) by lia.
  replace (a + Z.of_nat x')%Z with (Z.of_nat (Z.to_nat a + x')) by lia. rewrite px_rows_nat.
  destruct (Nat.ltb_spec y' (Nat.min (Z.to_nat d) (im_h im) - Nat.min (Z.to_nat c) (im_h im))) as [Y|Y]; simpl.
  - rewrite (proj2 (Z.ltb_lt _ _)) by lia. simpl. replace (Nat.min (Z.to_nat c) (im_h im)) with (Z.to_nat c) by lia.
    destruct (nth_error (im_rows im) (Z.to_nat c + y')) as [r|] eqn:E; simpl; [|destruct (_ <? _)%Z; reflexivity].
    rewrite nth_error_slice, (Forall_nth_error _ _ _ _ Vw E), !C by lia.
    destruct (Nat.ltb_spec x' (Nat.min (Z.to_nat b) (im_w im) - Nat.min (Z.to_nat a) (im_w im))) as [X|X].
    + rewrite (proj2 (Z.ltb_lt _ _)) by lia. f_equal. lia.
    + destruct (Z.ltb_spec (Z.of_nat (Z.to_nat a + x')) b); [|reflexivity]. symmetry. apply nth_error_None.
      rewrite (Forall_nth_error _ _ _ _ Vw E). lia.
  - destruct (Z.ltb_spec (Z.of_nat (Z.to_nat c + y')) d); simpl; [|reflexivity].
    destruct (nth_error (im_rows im) (Z.to_nat c + y')) as [r|] eqn:E; [|destruct (_ <? _)%Z; reflexivity].
    assert (nth_error (im_rows im) (Z.to_nat c + y') <> None) as NN by (rewrite E; discriminate). apply nth_error_Some in NN. lia.
Qed.

(** C38-C42: coordinate transformations and motion estimation. *)
From Coq Require Import ZArith Reals Lra Lia Bool Arith List Ring.
From Verif Require Import Model.Num Model.Base Model.Tracker Model.CameraMotion
  Spec.PointSpec Spec.BuiltinSpec Spec.CameraSpec Proofs.NumLaws.
Import ListNotations.
Local Open Scope nat_scope.

(** ** Counting *)
Lemma occurs_count {A} (eqb : A -> A -> bool) (ok : forall x y, eqb x y = true <-> x = y) v l : occurs v l (length (filter (eqb v) l)).
Proof.
  unfold occurs, how_many. set (P := fun i => match nth_error l i with Some x => eqb v x | None => false end).
  exists (filter P (seq 0 (length l))). split; [apply NoDup_filter, seq_NoDup|]. split.
  - intros i. rewrite filter_In, in_seq. unfold P. destruct (nth_error l i) as [x|] eqn:E.
    + rewrite ok. split.
      * intros [Hi ->]. split; [lia|reflexivity].
      * intros [Hi X]. injection X as ->. split; [lia|reflexivity].
    + split; [intros [_ X]; discriminate|intros [_ X]; discriminate].
  - unfold P. clear P. induction l as [|x l IH]; auto. cbn [length seq filter nth_error]. 
    assert (E : length (filter (fun i => match nth_error (x :: l) i with Some x => eqb v x | None => false end) (seq 1 (length l))) = length (filter (eqb v) l)).
    { rewrite <- seq_shift, <- IH. generalize (seq 0 (length l)). intros q. induction q as [|j q IHq]; auto.
      cbn [map filter]. change (nth_error (x :: l) (S j)) with (nth_error l j).
      destruct (match nth_error l j with Some x0 => eqb v x0 | None => false end); cbn [length]; rewrite IHq; reflexivity. }
    destruct (eqb v x); cbn [length]; rewrite E; reflexivity.
Qed.
Lemma occurs_unique {A} (v : A) l k m : occurs v l k -> occurs v l m -> k = m.
Proof.
  intros (a & Na & Ia & <-) (b & Nb & Ib & <-). apply Nat.le_antisymm; apply NoDup_incl_length; auto; intros i Hi.
  - apply Ib, Ia, Hi.
  - apply Ia, Ib, Hi.
Qed.
Lemma keep_survivors {A} st : forall l : list A, keep st l = survivors st l.
Proof. unfold survivors. induction st as [|[|] st IH]; intros [|x l]; cbn; auto. f_equal. apply IH. Qed.
Lemma combine_nil {A B} (a : list A) : combine a (@nil B) = [].
Proof. destruct a; reflexivity. Qed.

Lemma survivors_planar {N : Num} st (p : points N) : planar p -> planar (survivors st p).
Proof.
  unfold survivors, planar. intros F. rewrite Forall_forall in *. intros r Hr. apply in_map_iff in Hr as ([b q] & <- & Hq).
  apply filter_In in Hq as [Hq _]. apply F. exact (in_combine_r _ _ _ _ Hq).
Qed.

Section Translation.
Context {N : Num}.

(** ** Rows *)
Section Rows.
Hypothesis eqn : num_eq N.
Lemma row_eqb_iff (a b : list N) : row_eqb a b = true <-> a = b.
Proof.
  revert b. induction a as [|x a IH]; intros [|y b]; cbn; try (split; [discriminate|discriminate]); [split; reflexivity|].
  rewrite andb_true_iff, (eqn x y), IH. split; [intros [-> ->]; reflexivity|intros E; injection E as -> ->; auto].
Qed.
Lemma insert_in r (l : list (list N)) x : In x (insert_row r l) <-> x = r \/ In x l.
Proof.
  induction l as [|s l IH]; cbn; [intuition congruence|].
  destruct (row_eqb r s) eqn:E.
  - apply row_eqb_iff in E as ->. cbn. intuition congruence.
  - destruct (row_ltb r s); cbn; [intuition congruence|]. rewrite IH. intuition congruence.
Qed.
Lemma unique_in (l : list (list N)) x : In x (unique_rows l) <-> In x l.
Proof. induction l as [|r l IH]; cbn; [split; auto|]. fold (unique_rows l). rewrite insert_in, IH. intuition congruence. Qed.
Lemma count_occurs (r : list N) l : occurs r l (count_row r l).
Proof. apply occurs_count, row_eqb_iff. Qed.
End Rows.
Lemma best_row_in (l : list (list N)) rows : forall best, In (best_row l best rows) (best :: rows).
Proof.
  induction rows as [|r rows IH]; intros best; [cbn; auto|]. cbn [best_row].
  destruct (IH (if Nat.ltb (count_row best l) (count_row r l) then r else best)) as [E|E].
  - rewrite <- E. destruct (Nat.ltb _ _); cbn; auto.
  - cbn. auto.
Qed.
Lemma best_row_max (l : list (list N)) rows : forall best x, In x (best :: rows) -> count_row x l <= count_row (best_row l best rows) l.
Proof.
  induction rows as [|r rows IH]; intros best x Hx; [destruct Hx as [->|[]]; auto|]. cbn [best_row].
  set (b := if Nat.ltb (count_row best l) (count_row r l) then r else best).
  assert (B : count_row best l <= count_row b l /\ count_row r l <= count_row b l)
    by (unfold b; destruct (Nat.ltb_spec (count_row best l) (count_row r l)); lia).
  pose proof (IH b b (or_introl eq_refl)). destruct Hx as [<-|[<-|Hx]]; [lia|lia|]. apply IH. right. exact Hx.
Qed.
Lemma clear_mode_best (eqn : num_eq N) (l : list (list N)) v r rows : unique_rows l = r :: rows -> clear_mode v l -> best_row l r rows = v.
Proof.
  intros U (k & O & Hk & M). pose proof (best_row_in l rows r) as I. rewrite <- U in I. apply (unique_in eqn) in I.
  pose proof (occurs_unique v l k _ O (count_occurs eqn v l)) as Ek.
  assert (Iv : In v l).
  { destruct O as (q & _ & Iq & Lq). destruct q as [|i q]; [cbn in Lq; lia|]. apply (nth_error_In l i).
    apply (proj1 (Iq i)). left. reflexivity. }
  pose proof (best_row_max l rows r v) as Mx. rewrite <- U in Mx. specialize (Mx (proj2 (unique_in eqn l v) Iv)).
  destruct (row_eqb (best_row l r rows) v) eqn:E; [apply (row_eqb_iff eqn); exact E|]. exfalso.
  assert (Ne : best_row l r rows <> v) by (intros X; apply (row_eqb_iff eqn) in X; congruence).
  specialize (M _ _ Ne (count_occurs eqn _ l)). lia.
Qed.

(** ** C38 *)
Section Ring.
Hypothesis rt0 : ring_num N.
Let rt : ring_theory (@n0 N) n1 nadd nmul nsub (fun x => nsub n0 x) eq := rt0.
Add Ring nring : rt.
Lemma sub_add (r v : list N) : length r = length v -> map2 nsub (map2 nadd r v) v = r.
Proof.
  clear -rt. revert v. induction r as [|x r IH]; intros [|y v] H; try discriminate; auto.
  unfold map2 in *. cbn. f_equal; [ring|]. apply IH. cbn in H. lia.
Qed.
Lemma add_sub (r v : list N) : length r = length v -> map2 nadd (map2 nsub r v) v = r.
Proof.
  clear -rt. revert v. induction r as [|x r IH]; intros [|y v] H; try discriminate; auto.
  unfold map2 in *. cbn. f_equal; [ring|]. apply IH. cbn in H. lia.
Qed.
Lemma translation_round_trip (v : list N) (p : points N) : Forall (fun row => length row = length v) p ->
  ct_rel_to_abs (translation v) (ct_abs_to_rel (translation v) p) = p /\
  ct_abs_to_rel (translation v) (ct_rel_to_abs (translation v) p) = p.
Proof.
  clear -rt. intros F. cbn. rewrite !map_map. split.
  - rewrite <- (map_id p) at 2. apply map_ext_Forall. eapply Forall_impl; [|exact F]. intros r Hr. apply sub_add, Hr.
  - rewrite <- (map_id p) at 2. apply map_ext_Forall. eapply Forall_impl; [|exact F]. intros r Hr. apply add_sub, Hr.
Qed.
(** (c - b) + (b - a) = c - a. *)
Lemma sub_chain (c : list N) : forall b a, length c = length b -> length b = length a ->
  map2 nadd (map2 nsub c b) (map2 nsub b a) = map2 nsub c a.
Proof.
  clear -rt. induction c as [|x c IH]; intros [|y b] [|z a] H1 H2; try discriminate; auto.
  unfold map2 in *. cbn. f_equal; [ring|]. apply IH; cbn in *; lia.
Qed.
Lemma shift_move (w : list N) : forall c a, length w = length c -> length c = length a ->
  map2 nadd (shifted_by a w) (map2 nsub c a) = shifted_by c w /\ map2 nsub (shifted_by c w) (map2 nsub c a) = shifted_by a w.
Proof.
  clear -rt. unfold shifted_by, map2. induction w as [|x w IH]; intros [|y c] [|z a] H1 H2; try discriminate; auto.
  cbn. destruct (IH c a) as [E1 E2]; [cbn in *; lia|cbn in *; lia|]. split; (f_equal; [ring|assumption]).
Qed.
End Ring.

(** ** C40 *)
Section Camera.
Hypothesis rt0 : ring_num N.
Hypothesis eqn : num_eq N.
Variables (V : vision N) (around : N -> N) (bin thr : N) (D : gray_t V -> list N).
Variable video : list (frame_t V * option (mask_t V)).
Hypothesis ok : flow_measures V video around bin D.
Variable g0 : gray_t V.

Definition data_ok (gp : gray_t V) (d : option (list N)) : Prop :=
  match d with None => D gp = D g0 | Some v => v = map2 nsub (D gp) (D g0) end.
Definition prev_ok (g : gray_t V) (m : option (mask_t V)) (p : option (points N)) : Prop := match p with None => True | Some q => own_points V video g m q /\ q <> [] /\ planar q end.

Lemma flow_found gn mn gp pp m : shot V video gn mn -> shot V video gp m -> prev_ok gp m pp -> exists curr prev, sparse_flow V gn gp pp m = Ret (curr, prev) /\
  (own_points V video gp m prev /\ prev <> [] /\ planar prev) /\ clear_mode (map2 nsub (D gn) (D gp)) (binned_flow around bin curr prev).
Proof.
  intros SN SP P. unfold sparse_flow.
  assert (E : exists prev, (match pp with Some p => Ret (Some p) | None => corners V gp m end) = Ret (Some prev) /\ own_points V video gp m prev /\ prev <> [] /\ planar prev).
  { destruct pp as [p|]; [exists p; auto|]. destruct (fm_corners _ _ _ _ _ ok gp m SP) as (p & E & Hp). exists p. split; [exact E|]. split; [constructor; exact E|exact Hp]. }
  destruct E as (prev & -> & Ho & Hp & Hq). destruct (fm_flow _ _ _ _ _ ok gp m gn mn prev SP SN Ho Hp Hq) as (curr & status & E & L1 & L2 & M).
  rewrite E. exists (keep status curr), (keep status prev). split; [reflexivity|]. rewrite !keep_survivors. split; [|exact M].
  split; [exact (own_followed V video gp m prev gn mn curr status Ho SN E)|]. split; [|apply survivors_planar, Hq]. intros Z. rewrite Z in M. destruct M as (k & (q & _ & Iq & Lq) & Hk & _). unfold flow_vectors in Iq. rewrite combine_nil in Iq.
  destruct q as [|i q]; [cbn in Lq; lia|]. destruct (proj1 (Iq i) (or_introl eq_refl)) as [X _]. cbn in X. lia.
Qed.

Lemma tg_step data gn mn gp pp m : shot V video gn mn -> shot V video gp m -> prev_ok gp m pp -> data_ok gp data -> exists curr prev u data',
  sparse_flow V gn gp pp m = Ret (curr, prev) /\ (own_points V video gp m prev /\ prev <> [] /\ planar prev) /\
  tg_call around (MkTG bin thr data) (Some curr) (Some prev) =
    (MkTG bin thr data', Ret (u, Some (map2 nsub (D gn) (D g0)))) /\
  data_ok (if u : bool then gn else gp) data'.
Proof.
  intros SN SP P Hd. destruct (flow_found gn mn gp pp m SN SP P) as (curr & prev & E & Hp & M). exists curr, prev.
  unfold tg_call. cbn [tg_bin tg_threshold tg_data].
  destruct (unique_rows (binned_flow around bin curr prev)) as [|r rows] eqn:U.
  - exfalso. destruct M as (k & (q & _ & Iq & Lq) & Hk & _). destruct q as [|i q]; [cbn in Lq; lia|].
    destruct (proj1 (Iq i) (or_introl eq_refl)) as [_ X]. apply nth_error_In in X. apply (unique_in eqn) in X. rewrite U in X. destruct X.
  - rewrite (clear_mode_best eqn _ _ _ _ U M).
    assert (F : match data with Some d => map2 nadd (map2 nsub (D gn) (D gp)) d | None => map2 nsub (D gn) (D gp) end = map2 nsub (D gn) (D g0)).
    { destruct data as [d|]; cbn in Hd.
      - subst d. apply sub_chain; auto; rewrite !(fm_size _ _ _ _ _ ok); reflexivity.
      - rewrite Hd. reflexivity. }
    rewrite F. destruct (nltb _ thr) eqn:T.
    + exists true, (Some (map2 nsub (D gn) (D g0))). split; [exact E|]. split; [exact Hp|]. split; [reflexivity|]. cbn. reflexivity.
    + exists false, data. split; [exact E|]. split; [exact Hp|]. split; [reflexivity|]. exact Hd.
Qed.

(** The state after some frames: the reference image and what was accumulated up to it. *)
Definition est_ok (s : estimator V (tgetter N)) : Prop :=
  exists gp data, me_gray_prvs s = Some gp /\ shot V video gp (me_prev_mask s) /\ prev_ok gp (me_prev_mask s) (me_prev_pts s) /\ me_getter s = MkTG bin thr data /\ data_ok gp data.
Lemma est_step s f mask g : (est_ok s \/ (s = estimator_new V (tg_new bin thr) /\ g = g0)) -> In (f, mask) video -> to_gray V f = Ret g ->
  exists s', estimator_update V (tg_call around) s f mask = (s', Ret (Some (map2 nsub (D g) (D g0)))) /\ est_ok s'.
Proof.
  intros Hs If Hg. assert (SN : shot V video g mask) by (exists f; auto). unfold estimator_update. rewrite Hg.
  destruct Hs as [(gp & data & E1 & SP & P & E2 & Hd)|[-> ->]].
  - rewrite E1. destruct (tg_step data g mask gp (me_prev_pts s) (me_prev_mask s) SN SP P Hd) as (curr & prev & u & data' & E3 & Hp & E4 & Hd').
    rewrite E3, E2, E4. destruct u; eexists; (split; [reflexivity|]).
    + exists g, data'. cbn. auto.
    + exists gp, data'. cbn. auto.
  - cbn [estimator_new me_gray_prvs me_prev_pts me_getter tg_new].
    destruct (tg_step None g0 mask g0 None mask SN SN I eq_refl) as (curr & prev & u & data' & E3 & Hp & E4 & Hd').
    unfold tg_new in *. cbn. rewrite E3, E4. destruct u; eexists; (split; [reflexivity|]).
    + exists g0, data'. cbn. auto.
    + exists g0, data'. cbn. auto.
Qed.
Lemma est_video frames : incl frames video -> forall s, est_ok s -> forall t f m g, nth_error frames t = Some (f, m) -> to_gray V f = Ret g ->
  nth_error (estimate_video V (tg_call around) s frames) t = Some (Ret (Some (map2 nsub (D g) (D g0)))).
Proof.
  induction frames as [|[f0 m0] frames IH]; intros Hi s Hs [|t] f m g Hn Hg; try discriminate.
  - injection Hn as -> ->. cbn. destruct (est_step s f m g (or_introl Hs) (Hi _ (or_introl eq_refl)) Hg) as (s' & -> & _). reflexivity.
  - cbn. destruct (fm_gray _ _ _ _ _ ok f0 m0 (Hi _ (or_introl eq_refl))) as [g' Hg']. destruct (est_step s f0 m0 g' (or_introl Hs) (Hi _ (or_introl eq_refl)) Hg') as (s' & -> & Hs').
    cbn. exact (IH (fun x Hx => Hi x (or_intror Hx)) s' Hs' t f m g Hn Hg).
Qed.
End Camera.

Lemma camera_translation (rt : ring_num N) (eqn : num_eq N) (V : vision N) around bin thr (D : gray_t V -> list N) f0 m0 frames g0 t f m g :
  flow_measures V ((f0, m0) :: frames) around bin D -> to_gray V f0 = Ret g0 ->
  nth_error ((f0, m0) :: frames) t = Some (f, m) -> to_gray V f = Ret g ->
  exists v, nth_error (estimate_video V (tg_call around) (estimator_new V (tg_new bin thr)) ((f0, m0) :: frames)) t = Some (Ret (Some v)) /\
  forall scene, Forall (fun w => length w = 2) scene ->
    ct_abs_to_rel (translation v) (map (shifted_by (D g0)) scene) = map (shifted_by (D g)) scene /\
    ct_rel_to_abs (translation v) (map (shifted_by (D g)) scene) = map (shifted_by (D g0)) scene.
Proof.
  intros ok H0 Hn Hg. exists (map2 nsub (D g) (D g0)). split.
  - destruct t as [|t].
    + injection Hn as -> ->. rewrite H0 in Hg. injection Hg as ->. cbn.
      destruct (est_step rt eqn V around bin thr D _ ok g _ f m g (or_intror (conj eq_refl eq_refl)) (or_introl eq_refl) H0) as (s' & -> & _). reflexivity.
    + cbn. destruct (est_step rt eqn V around bin thr D _ ok g0 _ f0 m0 g0 (or_intror (conj eq_refl eq_refl)) (or_introl eq_refl) H0) as (s' & -> & Hs').
      exact (est_video rt eqn V around bin thr D _ ok g0 frames (fun x Hx => or_intror Hx) s' Hs' t f m g Hn Hg).
  - intros scene F. cbn. rewrite !map_map. split; apply map_ext_Forall; (eapply Forall_impl; [|exact F]); intros w Hw.
    + apply (shift_move rt w (D g) (D g0)); rewrite ?Hw, !(fm_size _ _ _ _ _ ok); reflexivity.
    + apply (shift_move rt w (D g) (D g0)); rewrite ?Hw, !(fm_size _ _ _ _ _ ok); reflexivity.
Qed.

(** ** C42 *)
Section Failures.
Context {G T : Type}.
Variable V : vision N.
Variable call : G -> option (points N) -> option (points N) -> G * result (bool * option T).
Lemma no_escape s f m g : to_gray V f = Ret g -> exists s' t, estimator_update V call s f m = (s', Ret t).
Proof.
  intros E. unfold estimator_update. rewrite E. destruct (match me_gray_prvs s with None => _ | Some _ => _ end) as [gp pm].
  destruct (match sparse_flow V g gp (me_prev_pts s) pm with Ret (c, p) => _ | Raise _ => _ end) as [c p].
  destruct (match call (me_getter s) c p with (g0, Ret (u, t)) => _ | (_, Raise _) => _ end) as [[g1 u] t]. eauto.
Qed.
Lemma copy_kept s f m : me_getter_copy (fst (estimator_update V call s f m)) = me_getter_copy s.
Proof.
  unfold estimator_update. destruct (to_gray V f) as [g|]; [|reflexivity].
  destruct (match me_gray_prvs s with None => _ | Some _ => _ end) as [gp pm].
  destruct (match sparse_flow V g gp (me_prev_pts s) pm with Ret (c, p) => _ | Raise _ => _ end) as [c p].
  destruct (match call (me_getter s) c p with (g0, Ret (u, t)) => _ | (_, Raise _) => _ end) as [[g1 u] t]. destruct u; reflexivity.
Qed.
Lemma copy_after frames : forall s, me_getter_copy (after_frames V call s frames) = me_getter_copy s.
Proof. induction frames as [|[f m] frames IH]; intros s; [reflexivity|]. cbn. rewrite IH. apply copy_kept. Qed.
Lemma escapes_gray s f m e : to_gray V f = Raise e -> estimator_update V call s f m = (s, Raise e).
Proof. intros E. unfold estimator_update. rewrite E. reflexivity. Qed.
Lemma getter_failed s f m g g' e : to_gray V f = Ret g ->
  call (me_getter s) (fst (getter_args V s g m)) (snd (getter_args V s g m)) = (g', Raise e) ->
  estimator_update V call s f m = (MkEst (Some g) None m (me_getter_copy s) (me_getter_copy s), Ret None).
Proof.
  intros E C. unfold estimator_update. rewrite E. unfold getter_args, flow, reference in C.
  destruct (me_gray_prvs s); cbn [fst snd] in C; destruct (sparse_flow _ _ _ _ _) as [[c p]|]; cbn [fst snd] in C; rewrite C; reflexivity.
Qed.
Lemma starts_over getter frames s f m g g' e : s = after_frames V call (estimator_new V getter) frames -> to_gray V f = Ret g ->
  call (me_getter s) (fst (getter_args V s g m)) (snd (getter_args V s g m)) = (g', Raise e) ->
  estimator_update V call s f m = (started_over V getter g m, Ret None).
Proof. intros -> E C. rewrite (getter_failed _ _ _ _ _ _ E C), copy_after. reflexivity. Qed.
End Failures.

Lemma flow_fails_translation (V : vision N) around getter frames s f m g e :
  s = after_frames V (tg_call around) (estimator_new V getter) frames -> to_gray V f = Ret g -> flow V s g m = Raise e ->
  estimator_update V (tg_call around) s f m = (started_over V getter g m, Ret None).
Proof.
  intros E Hg F. apply (starts_over V (tg_call around) getter frames s f m g (me_getter s) ETypeError E Hg).
  unfold getter_args. rewrite F. reflexivity.
Qed.

(** The matrix a homography getter keeps, against the transformation of the last reference. *)
Definition keeps (g : hgetter N) (last : option (homography N)) : Prop :=
  match hg_data g with None => last = None | Some m => exists h, homography_new m = Ret h /\ last = Some h end.
Lemma keeps_call find g last c p : keeps g last ->
  match hg_call find g c p with
  | (g', Ret (true, t)) => keeps g' t
  | (g', Ret (false, t)) => keeps g' last /\ p <> None
  | (g', Raise _) => True
  end.
Proof.
  intros K. unfold hg_call. destruct (enough p && enough c) eqn:E.
  - destruct p as [p|]; [|discriminate E]. destruct c as [c|]; [|rewrite andb_false_r in E; discriminate E].
    destruct (find p c) as [[mx [used|]]|e]; cbn [fst snd]; auto.
    match goal with |- context [nltb ?a ?b] => destruct (nltb a b) end; cbn zeta.
    + destruct mx as [mx|]; [|exact I]. destruct (hg_data g) as [d|].
      * destruct (homography_new (mat3_mul mx d)) as [h|] eqn:Hh; [|exact I]. unfold keeps; cbn. eauto.
      * destruct (homography_new mx) as [h|] eqn:Hh; [|exact I]. unfold keeps; cbn. eauto.
    + destruct mx as [mx|]; [|exact I]. destruct (hg_data g) as [d|].
      * destruct (homography_new (mat3_mul mx d)); [|exact I]. split; [exact K|discriminate].
      * destruct (homography_new mx); [|exact I]. split; [exact K|discriminate].
  - unfold keeps in *. destruct (hg_data g) as [d|] eqn:D.
    + destruct K as (h & Hh & ->). rewrite Hh, D. eauto.
    + rewrite D. reflexivity.
Qed.
Lemma keeps_after (V : vision N) find thr : forall frames s last, keeps (me_getter s) last -> me_getter_copy s = hg_new thr ->
  keeps (me_getter (after_frames V (hg_call find) s frames)) (of_last_reference V (hg_call find) s last frames).
Proof.
  induction frames as [|[f m] frames IH]; intros s last K C; [exact K|]. cbn [after_frames of_last_reference].
  destruct (estimator_update V (hg_call find) s f m) as [s' r] eqn:E. cbn [fst].
  enough (keeps (me_getter s') (match r, me_prev_pts s' with Ret t, None => t | _, _ => last end) /\ me_getter_copy s' = hg_new thr) as [K' C']
    by (apply IH; assumption).
  unfold estimator_update in E. destruct (to_gray V f) as [g|e]; [|injection E as <- <-; split; assumption].
  destruct (match me_gray_prvs s with None => (g, m) | Some g0 => (g0, me_prev_mask s) end) as [gp pm].
  destruct (match sparse_flow V g gp (me_prev_pts s) pm with Ret (c, p) => (Some c, Some p) | Raise _ => (None, None) end) as [c p].
  pose proof (keeps_call find (me_getter s) last c p K) as KC.
  destruct (hg_call find (me_getter s) c p) as [g' [[[|] t]|e]]; injection E as <- <-; cbn.
  - split; assumption.
  - destruct KC as [KC P]. destruct p; [|contradiction]. split; assumption.
  - split; [rewrite C; reflexivity|exact C].
Qed.
Lemma flow_fails_homography (V : vision N) find thr frames s f m g e :
  s = after_frames V (hg_call find) (estimator_new V (@hg_new N thr)) frames -> to_gray V f = Ret g ->
  flow V s g m = Raise e ->
  estimator_update V (hg_call find) s f m =
    (MkEst (Some g) None m (me_getter s) (hg_new thr),
     Ret (of_last_reference V (hg_call find) (estimator_new V (hg_new thr)) None frames)).
Proof.
  intros E Hg F. pose proof (keeps_after V find thr frames (estimator_new V (hg_new thr)) None eq_refl eq_refl) as K.
  rewrite <- E in K. unfold keeps in K.
  assert (C : me_getter_copy s = hg_new thr) by (subst s; apply copy_after).
  unfold flow, reference in F. unfold estimator_update. rewrite Hg.
  set (last := of_last_reference _ _ _ _ _) in *. clearbody last.
  assert (HC : hg_call find (me_getter s) None None = (me_getter s, Ret (true, last))).
  { unfold hg_call. cbn [enough andb]. destruct (hg_data (me_getter s)) as [d|]; [destruct K as (h & -> & K)|]; rewrite K; reflexivity. }
  destruct (me_gray_prvs s); cbn in F; rewrite F, HC, C; reflexivity.
Qed.

Lemma map2_nth {A B C} (f : A -> B -> C) : forall a b j x y, nth_error a j = Some x -> nth_error b j = Some y -> nth_error (map2 f a b) j = Some (f x y).
Proof.
  unfold map2. induction a as [|x a IH]; intros [|y b] [|j] x' y' H1 H2; cbn in *; try discriminate.
  - congruence.
  - apply IH; auto.
Qed.
Lemma translation_direction (v : list N) (p : points N) i j row x d :
  nth_error p i = Some row -> nth_error row j = Some x -> nth_error v j = Some d ->
  (exists r, nth_error (ct_rel_to_abs (translation v) p) i = Some r /\ nth_error r j = Some (nsub x d)) /\
  (exists r, nth_error (ct_abs_to_rel (translation v) p) i = Some r /\ nth_error r j = Some (nadd x d)).
Proof.
  intros H1 H2 H3. split; eexists; (split; [cbn; apply map_nth_error; exact H1|apply map2_nth; assumption]).
Qed.
End Translation.

From Coq Require Import QArith Arith List Lia.
Local Open Scope nat_scope.
From Verif Require Import Model.Num Model.Base Model.Matching Model.Filter Model.Tracker Model.Arrays Proofs.MatchingProofs Spec.ArraySpec.
Import ListNotations.

Local Arguments contents : simpl never.
Section User.
Context {A : Type}.
Implicit Types (s : user A) (m : memory A) (p : ndarray).

Lemma contents_assign m p q i v : a_block p < length m ->
  contents (assign p i v m) q = if a_block q =? a_block p then set_nth i v (contents m p) else contents m q.
Proof.
  intros H. unfold contents at 1, assign. rewrite nth_set_nth.
  destruct (Nat.eqb_spec (a_block q) (a_block p)) as [E|E]; [|reflexivity].
  rewrite E. apply Nat.ltb_lt in H. rewrite H. reflexivity.
Qed.
Lemma contents_app m m' p : a_block p < length m -> contents (m ++ m') p = contents m p.
Proof. intros H. unfold contents. now rewrite app_nth1. Qed.
Lemma contents_new m d n : contents (m ++ [d]) (MkArray (length m) n) = d.
Proof. unfold contents; cbn. rewrite app_nth2, Nat.sub_diag; auto. Qed.

(** The arrays of the user have different blocks, and no detection holds its copy in one of them. *)
Record inv s := {
  inv_in : forall p, In p (u_arrays s) -> a_block p < length (u_memory s);
  inv_nodup : NoDup (map a_block (u_arrays s));
  inv_abs : forall d, In d (u_detections s) ->
    a_block (da_absolute d) < length (u_memory s) /\ ~ In (a_block (da_absolute d)) (map a_block (u_arrays s)) }.

Lemma validated p q : validate_points p = Ret q -> a_block q = a_block p.
Proof. unfold validate_points. destruct (a_shape p) as [|? [|? [|]]]; intros [= <-]; reflexivity. Qed.

Lemma NoDup_snoc {B} (l : list B) x : NoDup l -> ~ In x l -> NoDup (l ++ [x]).
Proof.
  intros. apply (NoDup_Add (a := x) (l := l)).
  - replace l with (l ++ []) at 1 by apply app_nil_r. apply Add_app.
  - now split.
Qed.

Lemma inv_start : inv start.
Proof. split; cbn; [tauto|constructor|tauto]. Qed.
Lemma inv_act s x : inv s -> inv (act s x).
Proof.
  intros [I N B]. destruct x as [sh data|k i v|k]; cbn.
  - split; cbn; rewrite ?map_app, ?app_length; cbn.
    + intros p [H|[<-|[]]]%in_app_or; [specialize (I p H)|cbn]; lia.
    + apply NoDup_snoc; auto.
      intros (p & E & H)%in_map_iff. specialize (I p H). lia.
    + intros d H. destruct (B d H) as [L F]. split; [lia|].
      intros [G|[G|[]]]%in_app_or; [contradiction|lia].
  - destruct (nth_error (u_arrays s) k) as [p|] eqn:E; [|now split].
    split; cbn; unfold assign; rewrite ?set_nth_length; auto.
  - destruct (nth_error (u_arrays s) k) as [p|] eqn:E; [|now split].
    unfold detection_arrays. destruct (validate_points p) as [q|] eqn:V; [|now split].
    split; cbn; rewrite ?app_length; cbn; auto.
    + intros r H. specialize (I r H). lia.
    + intros d [H|[<-|[]]]%in_app_or; cbn.
      * destruct (B d H). split; [lia|auto].
      * split; [lia|]. intros (r & F & H)%in_map_iff. specialize (I r H). lia.
Qed.
Lemma inv_acts l : forall s, inv s -> inv (acts l s).
Proof. induction l; cbn; intros; auto. apply IHl, inv_act; assumption. Qed.

Lemma arrays_act s x k p : nth_error (u_arrays s) k = Some p -> nth_error (u_arrays (act s x)) k = Some p.
Proof.
  intros H. destruct x; cbn.
  - rewrite nth_error_app1; auto. apply nth_error_Some. congruence.
  - destruct (nth_error _ k0); auto.
  - destruct (nth_error _ k0); auto. destruct (detection_arrays _ _) as [[? ?]|]; auto.
Qed.

Lemma same_block s k k' p p' : inv s -> nth_error (u_arrays s) k = Some p -> nth_error (u_arrays s) k' = Some p' ->
  a_block p = a_block p' -> k = k'.
Proof.
  intros [_ N _] H H' E. eapply NoDup_nth_error; eauto.
  - apply nth_error_Some. rewrite nth_error_map, H. discriminate.
  - rewrite !nth_error_map, H, H'. cbn. congruence.
Qed.

Lemma values_write s k i v k' : inv s ->
  values (act s (Write k i v)) k' = if k' =? k then set_nth i v (values s k) else values s k'.
Proof.
  intros I. unfold values; cbn [act]. destruct (nth_error (u_arrays s) k) as [p|] eqn:E; cbn [u_arrays u_memory].
  - destruct (k' =? k) eqn:K.
    + apply Nat.eqb_eq in K; subst. rewrite E, contents_assign, Nat.eqb_refl; auto.
      eapply inv_in; eauto using nth_error_In.
    + destruct (nth_error (u_arrays s) k') as [p'|] eqn:E'; auto.
      rewrite contents_assign by (eapply inv_in; eauto using nth_error_In).
      destruct (a_block p' =? a_block p) eqn:B; auto.
      apply Nat.eqb_eq in B. apply Nat.eqb_neq in K. exfalso. apply K. eapply same_block; eauto.
  - destruct (k' =? k) eqn:K; auto. apply Nat.eqb_eq in K; subst. rewrite E.
    now destruct i.
Qed.

(** A detection keeps the block of its array and the values of its copy. *)
Definition holds s j k c sh := exists p d, nth_error (u_arrays s) k = Some p /\ nth_error (u_detections s) j = Some d /\
  a_block (da_points d) = a_block p /\ contents (u_memory s) (da_absolute d) = c /\
  a_shape (da_points d) = sh /\ a_shape (da_absolute d) = sh.
Lemma holds_act s x j k c sh : inv s -> holds s j k c sh -> holds (act s x) j k c sh.
Proof.
  intros I (p & d & P & D & B & C & S). assert (In d (u_detections s)) as Hd by eauto using nth_error_In.
  destruct (inv_abs s I d Hd) as [L F].
  exists p, d. split; [now apply arrays_act|]. destruct x as [shp data|k' i v|k']; cbn [act alloc u_memory u_arrays u_detections].
  - repeat split; auto; try apply S. now rewrite contents_app.
  - destruct (nth_error (u_arrays s) k') as [p'|] eqn:E; cbn [u_memory u_arrays u_detections]; [|repeat split; auto; apply S].
    repeat split; auto; try apply S. rewrite contents_assign by (eapply inv_in; eauto using nth_error_In).
    destruct (a_block (da_absolute d) =? a_block p') eqn:Q; auto. apply Nat.eqb_eq in Q.
    exfalso. apply F. rewrite Q. apply in_map; eauto using nth_error_In.
  - destruct (nth_error (u_arrays s) k') as [p'|] eqn:E; cbn [u_memory u_arrays u_detections]; [|repeat split; auto; apply S].
    unfold detection_arrays. destruct (validate_points p') as [q|] eqn:V; cbn [alloc u_memory u_arrays u_detections]; [|repeat split; auto; apply S].
    split; [|repeat split; auto; try apply S; now rewrite contents_app].
    rewrite nth_error_app1; auto. apply nth_error_Some. congruence.
Qed.
Lemma holds_acts l : forall s j k c sh, inv s -> holds s j k c sh -> holds (acts l s) j k c sh.
Proof. induction l; cbn; intros; auto. apply IHl; [now apply inv_act|]. now apply holds_act. Qed.

Lemma snapshot l1 k l2 p sh : nth_error (u_arrays (acts l1 start)) k = Some p ->
  match a_shape p with [n] => sh = [1; n] | _ :: _ :: _ :: _ => False | _ => sh = a_shape p end ->
  let s1 := acts l1 start in let s2 := acts (l1 ++ NewDetection k :: l2) start in
  exists d, nth_error (u_detections s2) (length (u_detections s1)) = Some d /\
    contents (u_memory s2) (da_points d) = values s2 k /\ contents (u_memory s2) (da_absolute d) = values (A := A) s1 k /\
    a_shape (da_points d) = sh /\ a_shape (da_absolute d) = sh.
Proof.
  intros P S. cbn zeta.
  replace (acts (l1 ++ NewDetection k :: l2) start) with (acts l2 (act (acts l1 start) (NewDetection k)))
    by (unfold acts; rewrite fold_left_app; reflexivity).
  set (s1 := acts l1 start) in *. assert (inv s1) as I by (apply inv_acts, inv_start).
  assert (holds (act s1 (NewDetection k)) (length (u_detections s1)) k (values s1 k) sh) as H.
  { assert (exists q, validate_points p = Ret q /\ a_shape q = sh) as (q & V & Q).
    { unfold validate_points. destruct (a_shape p) as [|a [|b [|]]] eqn:E; try contradiction; eexists; split; try reflexivity; subst; auto. }
    pose proof (validated _ _ V) as B.
    unfold holds. exists p. cbn. rewrite P. unfold detection_arrays; rewrite V. cbn.
    eexists. split; [exact P|]. split; [rewrite nth_error_app2, Nat.sub_diag by lia; reflexivity|]. cbn.
    rewrite contents_new. unfold values. rewrite P. unfold contents. rewrite B. auto. }
  apply (holds_acts l2) in H; [|now apply inv_act].
  destruct H as (p' & d & P' & D & B & C & S1 & S2). exists d.
  repeat split; auto.
  unfold values. rewrite P'. unfold contents. now rewrite B.
Qed.

Lemma constructor p m :
  (exists m' d, detection_arrays p m = Ret (m', d)) <-> length (a_shape p) <= 2.
Proof.
  unfold detection_arrays, validate_points. destruct (a_shape p) as [|a [|b [|c l]]]; cbn; split; intros H; eauto; try lia.
  destruct H as (? & ? & [=]).
Qed.
Lemma constructor_raises p m : 2 < length (a_shape p) -> detection_arrays p m = Raise EValueError.
Proof. unfold detection_arrays, validate_points. destruct (a_shape p) as [|a [|b [|c l]]]; cbn; intros; auto; lia. Qed.
Lemma dims p m m' d : detection_arrays p m = Ret (m', d) ->
  object_dims (da_absolute d) =
    match a_shape p with [] => Raise EIndexError | [n] => Ret (1, n) | n :: d :: _ => Ret (n, d) end.
Proof.
  unfold detection_arrays, validate_points, object_dims.
  destruct (a_shape p) as [|a [|b [|c l]]] eqn:E; cbn; intros [= <- <-]; cbn; rewrite ?E; auto.
Qed.
End User.

Lemma seen_new {N : Num} (m m' : memory N) p n d a scores data lbl : a_block p < length m -> a_shape p = [n; d] ->
  detection_arrays p m = Ret (m', a) ->
  seen m' a scores data lbl None = new_detection (rows n d (contents m p)) scores data lbl.
Proof.
  intros L E. unfold detection_arrays, validate_points. rewrite E. cbn. intros [= <- <-].
  unfold seen, read, new_detection; cbn. rewrite E, contents_new, contents_app; auto.
Qed.
Lemma seen_new1 {N : Num} (m m' : memory N) p d a scores data lbl : a_block p < length m -> a_shape p = [d] ->
  detection_arrays p m = Ret (m', a) ->
  seen m' a scores data lbl None = new_detection (rows 1 d (contents m p)) scores data lbl.
Proof.
  intros L E. unfold detection_arrays, validate_points. rewrite E. cbn. intros [= <- <-].
  unfold seen, read, new_detection; cbn. rewrite contents_new. unfold contents; cbn. rewrite app_nth1; auto.
Qed.

(** One buffer for two detections. *)
Definition reuse : list (step Q) :=
  [NewArray [1; 2]%nat [1; 2]; NewDetection 0; Write 0 0 5; Write 0 1 6; NewDetection 0]%Q.
Lemma reuse_shared : exists (l : list (step Q)) d e,
  u_detections (acts l start) = [d; e] /\
  let m := u_memory (acts l start) in
  read m (da_points d) = read m (da_points e) /\ read m (da_absolute d) <> read m (da_absolute e) /\
  read m (da_points d) <> read m (da_absolute d).
Proof.
  exists reuse. do 2 eexists. split; [reflexivity|]. cbn zeta. split; [reflexivity|].
  split; vm_compute; congruence.
Qed.

Lemma rows_concat {A} d (pts : list (list A)) : Forall (fun row => length row = d) pts -> rows (length pts) d (concat pts) = pts.
Proof.
  induction 1 as [|r pts L F IH]; [reflexivity|]. cbn. subst d. rewrite firstn_app, Nat.sub_diag, firstn_all, firstn_O, app_nil_r.
  rewrite skipn_app, Nat.sub_diag, skipn_all. cbn. rewrite IH. reflexivity.
Qed.
Lemma seen_points {N : Num} (m m' : memory N) (p : ndarray) (pts : points N) (d : nat) (a : det_arrays) scores data lbl :
  a_block p < length m -> contents m p = concat pts -> Forall (fun row => length row = d) pts ->
  a_shape p = [length pts; d] \/ (a_shape p = [d] /\ length pts = 1%nat) -> detection_arrays p m = Ret (m', a) ->
  seen m' a scores data lbl None = new_detection pts scores data lbl.
Proof.
  intros L C F H D. assert (E : rows (length pts) d (contents m p) = pts) by (rewrite C; apply rows_concat; exact F).
  rewrite <- E at 1. destruct H as [H|[H1 H2]].
  - exact (seen_new m m' p (length pts) d a scores data lbl L H D).
  - rewrite H2. exact (seen_new1 m m' p d a scores data lbl L H1 D).
Qed.

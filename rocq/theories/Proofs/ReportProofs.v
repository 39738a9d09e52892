From Coq Require Import ZArith QArith Arith Bool String List Lia.
From Verif Require Import Model.Num Model.Base Model.Metrics Model.Report Spec.ReportSpec.
Import ListNotations.
Local Open Scope nat_scope.

Lemma dict_get_set {A} k (v : A) d k' : dict_get k' (dict_set k v d) = if String.eqb k k' then Some v else dict_get k' d.
Proof.
  induction d as [|[k0 v0] d IH]; cbn; [reflexivity|].
  destruct (String.eqb_spec k0 k) as [->|E]; cbn.
  - destruct (String.eqb k k'); reflexivity.
  - rewrite IH. destruct (String.eqb_spec k0 k') as [->|F]; [|reflexivity].
    destruct (String.eqb_spec k k'); congruence.
Qed.
Lemma dict_keys_set {A} k (v : A) d :
  map fst (dict_set k v d) = if existsb (String.eqb k) (map fst d) then map fst d else map fst d ++ [k].
Proof.
  induction d as [|[k0 v0] d IH]; cbn; [reflexivity|]. rewrite (String.eqb_sym k k0).
  destruct (String.eqb_spec k0 k) as [->|E]; cbn; [reflexivity|]. rewrite IH.
  destruct (existsb _ _); reflexivity.
Qed.
Lemma dict_of_snoc {A} (l : list (string * A)) k v : dict_of (l ++ [(k, v)]) = dict_set k v (dict_of l).
Proof. unfold dict_of. rewrite fold_left_app. reflexivity. Qed.

Lemma first_seen_in l x : In x (first_seen l) <-> In x l.
Proof.
  induction l as [|a l IH]; cbn; [tauto|]. rewrite filter_In, IH.
  destruct (String.eqb_spec x a); cbn; intuition congruence.
Qed.
Lemma first_seen_nodup l : NoDup (first_seen l).
Proof.
  induction l as [|a l IH]; cbn; constructor; [|now apply NoDup_filter].
  rewrite filter_In, String.eqb_refl. cbn. intuition congruence.
Qed.
Lemma existsb_iff k l : existsb (String.eqb k) l = true <-> In k l.
Proof.
  rewrite existsb_exists. split; [intros (y & H & E); apply String.eqb_eq in E; congruence|].
  intros H. exists k. split; auto. apply String.eqb_refl.
Qed.
Lemma first_seen_snoc l k : first_seen (l ++ [k]) = if existsb (String.eqb k) l then first_seen l else first_seen l ++ [k].
Proof.
  induction l as [|a l IH]; cbn; [reflexivity|]. rewrite IH.
  destruct (String.eqb_spec k a) as [->|E]; cbn.
  - destruct (existsb (String.eqb a) l); [reflexivity|]. rewrite filter_app. cbn. rewrite String.eqb_refl. cbn. now rewrite app_nil_r.
  - destruct (existsb (String.eqb k) l); [reflexivity|]. rewrite filter_app. cbn.
    apply String.eqb_neq in E. rewrite E. reflexivity.
Qed.
Lemma existsb_first k l : existsb (String.eqb k) (first_seen l) = existsb (String.eqb k) l.
Proof. apply eq_iff_eq_true. rewrite !existsb_iff. apply first_seen_in. Qed.
Lemma dict_keys {A} (l : list (string * A)) : map fst (dict_of l) = first_seen (map fst l).
Proof.
  induction l as [|[k v] l IH] using rev_ind; [reflexivity|].
  rewrite dict_of_snoc, dict_keys_set, IH, map_app; cbn [map fst]; rewrite first_seen_snoc, existsb_first. reflexivity.
Qed.

Lemma nth_snoc {A} (l : list A) x n : nth_error (l ++ [x]) n = if n =? length l then Some x else nth_error l n.
Proof.
  destruct (Nat.eqb_spec n (length l)) as [->|E]; [rewrite nth_error_app2, Nat.sub_diag by lia; reflexivity|].
  destruct (Nat.lt_ge_cases n (length l)); [apply nth_error_app1; auto|].
  rewrite (proj2 (nth_error_None l n)) by lia. apply nth_error_None. rewrite app_length; cbn; lia.
Qed.
Lemma dict_get_of {A} (l : list (string * A)) k v : dict_get k (dict_of l) = Some v ->
  exists n, nth_error l n = Some (k, v) /\ last_at (map fst l) k n.
Proof.
  induction l as [|[k0 v0] l IH] using rev_ind; [discriminate|].
  rewrite dict_of_snoc, dict_get_set. unfold last_at. rewrite map_app. cbn [map fst].
  destruct (String.eqb_spec k0 k) as [->|E].
  - intros [= <-]. exists (length l). rewrite nth_snoc, Nat.eqb_refl.
    split; [reflexivity|]. split; [rewrite nth_snoc, map_length, Nat.eqb_refl; reflexivity|].
    intros n' L. rewrite (proj2 (nth_error_None _ _)) by (rewrite app_length, map_length; cbn; lia). discriminate.
  - intros H. destruct (IH H) as (n & P & Q & R). exists n.
    assert (n < length l) by (apply nth_error_Some; congruence).
    rewrite !nth_snoc, map_length. destruct (Nat.eqb_spec n (length l)); [lia|]. repeat split; auto.
    intros n' L. rewrite nth_snoc, map_length. destruct (Nat.eqb_spec n' (length l)); [congruence|auto].
Qed.
Lemma dict_get_in {A} k (d : list (string * A)) : In k (map fst d) -> exists v, dict_get k d = Some v.
Proof.
  induction d as [|[k0 v0] d IH]; cbn; [tauto|]. destruct (String.eqb_spec k0 k); [eauto|]. intros [?|H]; [contradiction|auto].
Qed.
Lemma dict_get_nodup {A} k (v : A) d : NoDup (map fst d) -> In (k, v) d -> dict_get k d = Some v.
Proof.
  induction d as [|[k0 v0] d IH]; cbn; [tauto|]. intros ND [E|H].
  - injection E as -> ->. now rewrite String.eqb_refl.
  - inversion ND as [|? ? NI ND']; subst. destruct (String.eqb_spec k0 k) as [->|]; auto.
    exfalso. apply NI. apply (in_map fst) in H. exact H.
Qed.
Lemma last_at_unique l k n n' : last_at l k n -> last_at l k n' -> n = n'.
Proof.
  intros [A B] [A' B']. destruct (Nat.lt_trichotomy n n') as [L|[E|L]]; auto; exfalso.
  - exact (B _ L A').
  - exact (B' _ L A).
Qed.

Lemma Forall2_len {A B} (R : A -> B -> Prop) l l' : Forall2 R l l' -> length l = length l'.
Proof. induction 1; cbn; auto. Qed.
Section R.
Context {N : Num} {G C : Type}.
Variable ground_truth : string -> result G.
Variable compare : G -> list (mrow (N := N)) -> C.

Lemma map_result_inv {A B} (f : A -> result B) l : forall l', map_result f l = Ret l' -> Forall2 (fun x y => f x = Ret y) l l'.
Proof.
  induction l as [|x l IH]; cbn; intros l'.
  - intros [= <-]. constructor.
  - destruct (f x) as [y|] eqn:E; [|discriminate]. destruct (map_result f l) as [r|]; [|discriminate].
    intros [= <-]. constructor; auto.
Qed.
Lemma map_result_all {A B} (f : A -> result B) l : (exists l', map_result f l = Ret l') <-> (forall x, In x l -> exists y, f x = Ret y).
Proof.
  induction l as [|x l IH]; cbn; [split; [tauto|eauto]|]. split.
  - intros [l' H]. destruct (f x) as [y|] eqn:E; [|discriminate]. destruct (map_result f l) as [r|] eqn:F; [|discriminate].
    intros z [<-|I]; [eauto|]. apply IH; eauto.
  - intros H. destruct (H x (or_introl eq_refl)) as [y ->]. destruct (proj2 IH) as [r ->]; [auto|]. eauto.
Qed.

Lemma dataframes gts ts :
  (forall k rows, In (k, rows) ts -> exists g, dict_get k gts = Some g) ->
  exists cs, compare_dataframes compare gts ts = (cs, map fst ts) /\
    Forall2 (fun c kv => exists g, dict_get (fst kv) gts = Some g /\ c = compare g (snd kv)) cs ts.
Proof.
  induction ts as [|[k rows] ts IH]; intros H; cbn; [exists []; split; [reflexivity|constructor]|].
  destruct IH as (cs & E & F); [intros; eapply H; right; eauto|]. rewrite E.
  destruct (H k rows) as [g Hg]; [now left|]. rewrite Hg. eexists; split; [reflexivity|]. constructor; eauto.
Qed.

Lemma eval_ok (s : accs (N := N)) :
  (exists r, eval_motChallenge ground_truth compare s = Ret r) <->
  Forall (fun p => exists g, ground_truth p = Ret g) (ac_paths s) /\
  length (ac_paths s) <= length (ac_matrixes s) /\
  forall n m, n < length (ac_paths s) -> nth_error (ac_matrixes s) n = Some m -> exists rows, load_motchallenge m (-1)%Q = Ret rows.
Proof.
  unfold eval_motChallenge, ac_evaluated. split.
  - intros [r H]. destruct (map_result _ (ac_paths s)) as [l|] eqn:E in H; [|discriminate].
    destruct (map_result _ (seq _ _)) as [t|] eqn:F in H; [|discriminate].
    assert (forall n, n < length (ac_paths s) -> exists m rows, nth_error (ac_matrixes s) n = Some m /\ load_motchallenge m (-1)%Q = Ret rows) as K.
    { intros n L. destruct (proj1 (map_result_all _ _) (ex_intro _ _ F) n) as [y Y]; [apply in_seq; lia|].
      destruct (nth_error (ac_matrixes s) n) as [m|] eqn:M; [|discriminate].
      destruct (load_motchallenge m (-1)%Q) as [rows|] eqn:R; [|discriminate]. eauto. }
    repeat split.
    + apply Forall_forall. intros p I. destruct (proj1 (map_result_all _ _) (ex_intro _ _ E) p I) as [y Y].
      destruct (ground_truth p); [eauto|discriminate].
    + destruct (Nat.le_gt_cases (length (ac_paths s)) (length (ac_matrixes s))) as [|L]; auto. exfalso.
      destruct (K _ L) as (m & rows & M & _). apply nth_error_Some in L || idtac. rewrite (proj2 (nth_error_None _ _)) in M by lia. discriminate.
    + intros n m L M. destruct (K n L) as (m' & rows & M' & R). exists rows. congruence.
  - intros (A & B & D).
    destruct (proj2 (map_result_all (fun p => match ground_truth p with Ret g => Ret (basename p, g) | Raise e => Raise e end) (ac_paths s))) as [l ->].
    { intros p I. rewrite Forall_forall in A. destruct (A p I) as [g ->]. eauto. }
    match goal with |- context [map_result ?f ?l] => destruct (proj2 (map_result_all f l)) as [t ->] end.
    { intros n I. apply in_seq in I. destruct (nth_error (ac_matrixes s) n) as [m|] eqn:M.
      - destruct (D n m) as [rows ->]; [lia|auto|eauto].
      - apply nth_error_None in M. lia. }
    eauto.
Qed.

Lemma report s cs names : eval_motChallenge ground_truth compare s = Ret (cs, names) ->
  names = first_seen (map basename (ac_paths s)) /\ Forall2 (compared ground_truth compare s) cs names.
Proof.
  unfold eval_motChallenge, ac_evaluated. intros H.
  destruct (map_result _ (ac_paths s)) as [l|] eqn:E in H; [|discriminate].
  destruct (map_result _ (seq _ _)) as [t|] eqn:F in H; [|discriminate].
  apply map_result_inv in E. apply map_result_inv in F.
  assert (map fst l = map basename (ac_paths s)) as KL.
  { clear - E. induction E as [|p [k g] ps l X E IH]; cbn; [reflexivity|]. rewrite IH.
    destruct (ground_truth p); [|discriminate]. injection X as <- _. reflexivity. }
  assert (forall n k rows, nth_error t n = Some (k, rows) -> exists p m, nth_error (ac_paths s) n = Some p /\ k = basename p /\
            nth_error (ac_matrixes s) n = Some m /\ load_motchallenge m (-1)%Q = Ret rows) as TN.
  { intros n k rows T.
    assert (forall q b (t : list (string * list mrow)), Forall2 (fun x y => match nth_error (ac_matrixes s) x with
        | Some m => match load_motchallenge m (-1)%Q with Ret rows0 => Ret (basename (nth x (ac_paths s) EmptyString), rows0) | Raise e => Raise e end
        | None => Raise EIndexError end = Ret y) (seq b q) t -> forall n k rows, nth_error t n = Some (k, rows) ->
        n < q /\ match nth_error (ac_matrixes s) (b + n) with
        | Some m => match load_motchallenge m (-1)%Q with Ret rows0 => Ret (basename (nth (b + n) (ac_paths s) EmptyString), rows0) | Raise e => Raise e end
        | None => Raise EIndexError end = Ret (k, rows)) as K.
    { clear. induction q as [|q IH]; intros b t F n k rows T; cbn in F; inversion F as [|? y ? t' X F']; subst; [destruct n; discriminate|].
      destruct n as [|n]; cbn in T.
      - injection T as ->. rewrite Nat.add_0_r. split; [lia|exact X].
      - destruct (IH (S b) t' F' n k rows T) as [L Z]. split; [lia|]. now rewrite Nat.add_succ_r. }
    destruct (K _ _ _ F _ _ _ T) as [L Z]. cbn in Z.
    destruct (nth_error (ac_matrixes s) n) as [m|] eqn:M; [|discriminate].
    destruct (load_motchallenge m (-1)%Q) as [rows0|] eqn:R; [|discriminate]. injection Z as <- <-.
    destruct (nth_error (ac_paths s) n) as [p|] eqn:P; [|apply nth_error_None in P; lia].
    exists p, m. repeat split; auto. now rewrite (nth_error_nth _ _ _ P). }
  assert (map fst t = map basename (ac_paths s)) as KT.
  { assert (L := F); apply Forall2_len in L. rewrite seq_length in L.
    apply (nth_ext _ _ EmptyString EmptyString); [rewrite !map_length; auto|].
    intros n Hn. rewrite map_length in Hn. destruct (nth_error t n) as [[k rows]|] eqn:T; [|apply nth_error_None in T; lia].
    destruct (TN _ _ _ T) as (p & m & P & -> & _).
    erewrite (nth_error_nth (map fst t)) by (rewrite nth_error_map, T; reflexivity).
    erewrite (nth_error_nth (map basename _)) by (rewrite nth_error_map, P; reflexivity). reflexivity. }
  destruct (dataframes (dict_of l) (dict_of t)) as (cs' & D & FD).
  { intros k rows I. apply dict_get_in. rewrite dict_keys, KL, <- KT, <- dict_keys.
    apply (in_map fst) in I. exact I. }
  rewrite D in H. injection H as <- <-. rewrite dict_keys, KT. split; [reflexivity|].
  rewrite <- KT, <- dict_keys.
  assert (forall kv, In kv (dict_of t) -> dict_get (fst kv) (dict_of t) = Some (snd kv)) as GT.
  { intros [k v] I. apply dict_get_nodup; auto. rewrite dict_keys. apply first_seen_nodup. }
  revert GT FD. generalize (dict_of t) at 1 3 4 as d. intros d GT FD.
  clear D. induction FD as [|c [k rows] cs' d (g & Hg & Hc) FD IH]; cbn; constructor.
  - cbn in Hg, Hc. specialize (GT (k, rows) (or_introl eq_refl)). cbn in GT.
    destruct (dict_get_of _ _ _ GT) as (n & T & LT). destruct (dict_get_of _ _ _ Hg) as (n' & L' & LL).
    rewrite KT in LT. rewrite KL in LL. assert (n' = n) by (eapply last_at_unique; eauto). subst n'.
    destruct (TN _ _ _ T) as (p & m & P & -> & M & R).
    exists n, p, g, m, rows. repeat split; auto; try apply LT.
    clear - E L' P. revert n L' P. induction E as [|q [k0 g0] ps l X E IH]; intros [|n] L' P; try discriminate.
    + injection P as ->. injection L' as -> ->. destruct (ground_truth p); [|discriminate]. injection X as ->. reflexivity.
    + eapply IH; eauto.
  - apply IH. intros. apply GT. now right.
Qed.
End R.

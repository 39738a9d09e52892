(** Ids handed out to several threads. *)
From Coq Require Import List Arith Lia Bool.
From Verif Require Import Model.Threads Spec.ThreadSpec.
Import ListNotations.

Lemma put_same {A} k (v : A) f : gt_put k v f k = v.
Proof. unfold gt_put. rewrite Nat.eqb_refl. reflexivity. Qed.
Lemma put_other {A} k (v : A) f j : j <> k -> gt_put k v f j = f j.
Proof. intros H. unfold gt_put. rewrite (proj2 (Nat.eqb_neq j k) H). reflexivity. Qed.

Lemma run_app trk a b s : gt_run trk (a ++ b) s = gt_run trk b (gt_run trk a s).
Proof. apply fold_left_app. Qed.

Lemma filter_snoc {A} (f : A -> bool) l x : filter f (l ++ [x]) = filter f l ++ (if f x then [x] else []).
Proof. induction l as [|y l IH]; cbn; [destruct (f x); reflexivity|]. rewrite IH. destruct (f y); reflexivity. Qed.

(* ---- local ids ---- *)
Section Local.
Variables (trk : nat -> nat) (own : own_trackers trk) (g0 : nat) (c0 : nat -> nat).

(** The number of calls of [t] that have returned, against the count of its tracker. *)
Definition local_ok (s : gthreads) (t : nat) : Prop :=
  let n := length (ids_of t s) in
  ids_of t s = seq (S (c0 (trk t))) n /\
  match gt_pc s t with
  | GIdle => gt_count s (trk t) = c0 (trk t) + n
  | GStoreCount v => gt_count s (trk t) = c0 (trk t) + n /\ v = c0 (trk t) + n
  | GLoadGlobal | GStoreGlobal _ | GReturnCount => gt_count s (trk t) = c0 (trk t) + S n
  | GReturnGlobal a => gt_count s (trk t) = c0 (trk t) + S n /\ a = c0 (trk t) + S n
  end.

Lemma local_step s u t : local_ok s t -> local_ok (gt_step trk s u) t.
Proof.
  unfold local_ok. intros [H1 H2]. destruct (Nat.eq_dec t u) as [->|Hn].
  - unfold gt_step. destruct (gt_pc s u) eqn:E; cbn [gt_count gt_pc gt_returned]; unfold ids_of in *; cbn [gt_returned]; rewrite ?put_same.
    + split; [exact H1|]. split; [exact H2|exact H2].
    + destruct H2 as [H2 ->]. split; [exact H1|]. lia.
    + split; [exact H1|exact H2].
    + split; [exact H1|exact H2].
    + split; [exact H1|]. split; exact H2.
    + destruct H2 as [H2 ->]. rewrite filter_snoc, map_app, app_length. cbn [fst snd]. rewrite Nat.eqb_refl. cbn [map length fst snd].
      rewrite H1 at 1. rewrite Nat.add_1_r, seq_S. split; [f_equal; f_equal; lia|exact H2].
  - assert (K : trk t <> trk u) by (intros K; apply Hn, own, K).
    assert (I : ids_of t (gt_step trk s u) = ids_of t s).
    { unfold ids_of, gt_step. destruct (gt_pc s u); cbn [gt_returned]; auto.
      rewrite filter_snoc. cbn [fst]. rewrite (proj2 (Nat.eqb_neq u t)) by congruence. rewrite app_nil_r. reflexivity. }
    assert (P : gt_pc (gt_step trk s u) t = gt_pc s t).
    { unfold gt_step. destruct (gt_pc s u); cbn [gt_pc]; apply put_other; exact Hn. }
    assert (C : gt_count (gt_step trk s u) (trk t) = gt_count s (trk t)).
    { unfold gt_step. destruct (gt_pc s u); cbn [gt_count]; auto. apply put_other. exact K. }
    rewrite I, P, C. auto.
Qed.
Lemma local_ids schedule t : ids_of t (gt_run trk schedule (gt_start g0 c0)) =
  seq (S (c0 (trk t))) (length (ids_of t (gt_run trk schedule (gt_start g0 c0)))).
Proof.
  enough (H : forall s, local_ok s t -> local_ok (gt_run trk schedule s) t).
  { apply H. split; [reflexivity|]. cbn. lia. }
  induction schedule as [|u l IH]; intros s Hs; [exact Hs|]. cbn. apply IH, local_step, Hs.
Qed.
End Local.

(* ---- range of the global ids ---- *)
Section Range.
Variables (trk : nat -> nat) (g0 : nat) (c0 : nat -> nat).

(** [n] calls have begun, [l] are the threads that have not yet stored the global count. *)
Definition before_store (p : gpc) : bool := match p with GStoreCount _ | GLoadGlobal | GStoreGlobal _ => true | _ => false end.
Definition range_ok (s : gthreads) (n : nat) : Prop :=
  (forall r, In r (gt_returned s) -> g0 < snd (snd r) <= g0 + n) /\
  (forall t, match gt_pc s t with
    | GReturnCount | GReturnGlobal _ => g0 < gt_global s
    | _ => True
    end) /\
  (exists l, NoDup l /\ (forall t, In t l <-> before_store (gt_pc s t) = true) /\
     g0 <= gt_global s /\ gt_global s + length l <= g0 + n /\
     (forall t v, gt_pc s t = GStoreGlobal v -> g0 <= v /\ v + length l <= g0 + n)).

Lemma length_remove t l : NoDup l -> In t l -> S (length (remove Nat.eq_dec t l)) = length l.
Proof.
  induction l as [|a l IH]; [intros _ []|]. intros D H. apply NoDup_cons_iff in D. destruct D as [D1 D2]. cbn.
  destruct (Nat.eq_dec t a) as [->|E].
  - rewrite notin_remove by exact D1. reflexivity.
  - destruct H as [H|H]; [congruence|]. cbn. rewrite IH; auto.
Qed.
Lemma nodup_remove t l : NoDup l -> NoDup (remove Nat.eq_dec t l).
Proof.
  induction 1 as [|a l H D IH]; cbn; [constructor|]. destruct (Nat.eq_dec t a); auto. constructor; auto.
  intros K. apply in_remove in K. tauto.
Qed.

Lemma range_step s u n : range_ok s n -> range_ok (gt_step trk s u) (match gt_pc s u with GIdle => 1 | _ => 0 end + n).
Proof.
  intros (R & P & l & D & M & G1 & G2 & V).
  assert (Pu := P u). assert (Mu := M u). assert (Vu := V u).
  unfold gt_step. destruct (gt_pc s u) as [|v| |v| |a] eqn:E; unfold range_ok; cbn [gt_returned gt_pc gt_global before_store] in *; cbn [plus].
  - split; [intros r Hr; specialize (R r Hr); lia|]. split.
    + intros t. destruct (Nat.eq_dec t u) as [->|Hn]; [rewrite put_same; exact I|]. rewrite put_other by exact Hn. apply P.
    + exists (u :: l). split; [constructor; [rewrite Mu; discriminate|exact D]|]. split.
      * intros t. destruct (Nat.eq_dec t u) as [->|Hn]; [rewrite put_same; cbn; tauto|]. rewrite put_other by exact Hn.
        rewrite <- M. cbn. split; [intros [K|K]; [congruence|exact K]|auto].
      * cbn [length]. split; [lia|]. split; [lia|]. intros t w. destruct (Nat.eq_dec t u) as [->|Hn]; [rewrite put_same; discriminate|].
        rewrite put_other by exact Hn. intros K. specialize (V t w K). lia.
  - split; [exact R|]. split.
    + intros t. destruct (Nat.eq_dec t u) as [->|Hn]; [rewrite put_same; exact I|]. rewrite put_other by exact Hn. apply P.
    + exists l. split; [exact D|]. split.
      * intros t. destruct (Nat.eq_dec t u) as [->|Hn]; [rewrite put_same; exact Mu|]. rewrite put_other by exact Hn. apply M.
      * split; [lia|]. split; [lia|]. intros t w. destruct (Nat.eq_dec t u) as [->|Hn]; [rewrite put_same; discriminate|].
        rewrite put_other by exact Hn. apply V.
  - split; [exact R|]. split.
    + intros t. destruct (Nat.eq_dec t u) as [->|Hn]; [rewrite put_same; exact I|]. rewrite put_other by exact Hn. apply P.
    + exists l. split; [exact D|]. split.
      * intros t. destruct (Nat.eq_dec t u) as [->|Hn]; [rewrite put_same; exact Mu|]. rewrite put_other by exact Hn. apply M.
      * split; [lia|]. split; [lia|]. intros t w. destruct (Nat.eq_dec t u) as [->|Hn].
        { rewrite put_same. intros [= <-]. lia. }
        rewrite put_other by exact Hn. apply V.
  - destruct (Vu v eq_refl) as [V1 V2]. assert (L := length_remove u l D (proj2 Mu eq_refl)).
    split; [exact R|]. split.
    + intros t. destruct (Nat.eq_dec t u) as [->|Hn]; [rewrite put_same; lia|]. rewrite put_other by exact Hn.
      destruct (gt_pc s t); auto; lia.
    + exists (remove Nat.eq_dec u l). split; [apply nodup_remove, D|]. split.
      * intros t. destruct (Nat.eq_dec t u) as [->|Hn].
        { rewrite put_same. split; [intros K; exfalso; exact (remove_In _ _ _ K)|discriminate]. }
        rewrite put_other by exact Hn. rewrite <- M. split; [intros K; apply in_remove in K; tauto|intros K; apply in_in_remove; auto].
      * split; [lia|]. split; [lia|]. intros t w. destruct (Nat.eq_dec t u) as [->|Hn]; [rewrite put_same; discriminate|].
        rewrite put_other by exact Hn. intros K. specialize (V t w K). lia.
  - split; [exact R|]. split.
    + intros t. destruct (Nat.eq_dec t u) as [->|Hn]; [rewrite put_same; exact Pu|]. rewrite put_other by exact Hn. apply P.
    + exists l. split; [exact D|]. split.
      * intros t. destruct (Nat.eq_dec t u) as [->|Hn]; [rewrite put_same; exact Mu|]. rewrite put_other by exact Hn. apply M.
      * split; [lia|]. split; [lia|]. intros t w. destruct (Nat.eq_dec t u) as [->|Hn]; [rewrite put_same; discriminate|].
        rewrite put_other by exact Hn. apply V.
  - split.
    { intros r Hr. apply in_app_or in Hr. destruct Hr as [Hr|[<-|[]]]; [exact (R r Hr)|]. cbn. lia. }
    split.
    + intros t. destruct (Nat.eq_dec t u) as [->|Hn]; [rewrite put_same; exact I|]. rewrite put_other by exact Hn. apply P.
    + exists l. split; [exact D|]. split.
      * intros t. destruct (Nat.eq_dec t u) as [->|Hn]; [rewrite put_same; exact Mu|]. rewrite put_other by exact Hn. apply M.
      * split; [lia|]. split; [lia|]. intros t w. destruct (Nat.eq_dec t u) as [->|Hn]; [rewrite put_same; discriminate|].
        rewrite put_other by exact Hn. apply V.
Qed.

Lemma global_range schedule g :
  In g (globals (gt_run trk schedule (gt_start g0 c0))) -> g0 < g <= g0 + begun trk schedule (gt_start g0 c0).
Proof.
  assert (H : forall s n, range_ok s n -> range_ok (gt_run trk schedule s) (begun trk schedule s + n)).
  { induction schedule as [|u l IH]; intros s n Hs; [exact Hs|]. cbn [gt_run fold_left begun].
    rewrite (Nat.add_comm _ (begun _ _ _)), <- Nat.add_assoc. apply (IH _ _ (range_step s u n Hs)). }
  destruct (H (gt_start g0 c0) 0) as [R _].
  - split; [intros r []|]. split; [intros t; exact I|]. exists []. split; [constructor|]. split; [intros t; cbn; split; [intros []|discriminate]|].
    cbn. split; [lia|]. split; [lia|]. intros t v; discriminate.
  - unfold globals. intros Hg. apply in_map_iff in Hg. destruct Hg as [r [<- Hr]]. specialize (R r Hr). lia.
Qed.
End Range.

(* ---- calls that do not overlap ---- *)
Section Locked.
Variables (trk : nat -> nat) (g0 : nat) (c0 : nat -> nat).

Definition serial_ok (s : gthreads) : Prop :=
  let n := length (globals s) in
  globals s = seq (S g0) n /\
  ((forall t, gt_pc s t = GIdle) /\ gt_global s = g0 + n \/
   exists t, (forall t', t' <> t -> gt_pc s t' = GIdle) /\
     match gt_pc s t with
     | GIdle | GStoreCount _ | GLoadGlobal => gt_global s = g0 + n
     | GStoreGlobal v => gt_global s = g0 + n /\ v = g0 + n
     | GReturnCount | GReturnGlobal _ => gt_global s = g0 + S n
     end).

Lemma serial_step s u : (forall t', t' <> u -> ~ inside s t') -> serial_ok s -> serial_ok (gt_step trk s u).
Proof.
  intros Q [H1 H2].
  assert (Idle : forall t', t' <> u -> gt_pc s t' = GIdle).
  { intros t' Ht. specialize (Q t' Ht). unfold inside in Q. destruct (gt_pc s t'); auto; exfalso; apply Q; discriminate. }
  assert (A : match gt_pc s u with
     | GIdle | GStoreCount _ | GLoadGlobal => gt_global s = g0 + length (globals s)
     | GStoreGlobal v => gt_global s = g0 + length (globals s) /\ v = g0 + length (globals s)
     | GReturnCount | GReturnGlobal _ => gt_global s = g0 + S (length (globals s))
     end).
  { destruct H2 as [[K1 K2]|[t [K1 K2]]]; [rewrite K1; exact K2|].
    destruct (Nat.eq_dec u t) as [->|Hn]; [exact K2|]. rewrite (K1 u Hn). rewrite (Idle t) in K2 by congruence. exact K2. }
  assert (I' : forall p t', t' <> u -> gt_put u p (gt_pc s) t' = GIdle).
  { intros p t' Ht. rewrite put_other by exact Ht. apply Idle, Ht. }
  unfold gt_step, serial_ok. destruct (gt_pc s u) eqn:E; unfold globals in *; cbn [gt_returned gt_pc gt_global].
  1-5: split; [exact H1|]; right; exists u; split; [apply I'|]; rewrite put_same; lia.
  rewrite map_app, app_length. cbn [map snd length]. split.
  - rewrite H1 at 1. rewrite Nat.add_1_r, seq_S. f_equal. f_equal. lia.
  - right. exists u. split; [apply I'|]. rewrite put_same. lia.
Qed.

Lemma locked_globals schedule : locked trk (gt_start g0 c0) schedule ->
  globals (gt_run trk schedule (gt_start g0 c0)) = seq (S g0) (length (globals (gt_run trk schedule (gt_start g0 c0)))).
Proof.
  enough (H : forall s, serial_ok s -> locked trk s schedule -> serial_ok (gt_run trk schedule s)).
  { intros L. apply H; [|exact L]. split; [reflexivity|]. left. cbn. split; [reflexivity|lia]. }
  induction schedule as [|u l IH]; intros s Hs L; [exact Hs|]. cbn. apply IH.
  - apply serial_step; [|exact Hs]. apply (L [] u l eq_refl).
  - intros before t after E. exact (L (u :: before) t after (f_equal (cons u) E)).
Qed.
End Locked.

Lemma locked_cons trk s t l : (forall t', t' <> t -> ~ inside s t') -> locked trk (gt_step trk s t) l -> locked trk s (t :: l).
Proof. intros H K [|b before] t0 after E; injection E as -> E; [exact H|]. exact (K before t0 after E). Qed.
Lemma locked_nil trk s : locked trk s [].
Proof. intros [|b before] t after; discriminate. Qed.

Lemma same_tracker_duplicate trk g0 c0 :
  exists schedule, globals_of 0 (gt_run trk schedule (gt_start g0 c0)) = [S g0; S g0].
Proof. exists [1; 1; 1; 0; 0; 0; 0; 0; 0; 0; 0; 0; 0; 1; 0; 0]. reflexivity. Qed.

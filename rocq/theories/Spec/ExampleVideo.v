(** Concrete videos of the example tracker, used to show that the hypotheses of theorems about videos are
    satisfiable. *)
From Coq Require Import ZArith QArith List Bool Arith.
From Verif Require Import Model.Num Model.Base Model.Filter Model.Tracker Spec.CallSpec Spec.ExampleTracker.
Import ListNotations.
Local Open Scope nat_scope.

Section Videos.
Context {N : Num} {FO : filter_ops N}.

(** One call: new detections (reference, detection), the list passed to update, period, transformation. *)
Record input := MkInput {
  in_new : list (nat * detection N); in_dets : list nat; in_period : Z;
  in_ct : option (coord_transformation N) }.

Definition put (h : nat -> detection N) (l : list (nat * detection N)) : nat -> detection N :=
  fold_left (fun h x => upd h (fst x) (snd x)) l h.

Fixpoint play (c : tconf FO) (s : st FO) (ins : list input) : option (list (frame FO)) :=
  match ins with
  | [] => Some []
  | x :: ins' =>
    let pre := meanwhile s (put (s_heap s) (in_new x)) (s_gcount s) in
    match update c (Some (in_dets x)) (in_period x) (in_ct x) pre with
    | (s', Ret out) =>
      match play c s' ins' with
      | Some fs => Some (MkFrame (in_dets x) (in_period x) (in_ct x) pre s' out :: fs)
      | None => None
      end
    | (_, Raise _) => None
    end
  end.

Lemma play_video c ins : forall s fs, play c s ins = Some fs -> video c s fs.
Proof.
  induction ins as [|x ins IH]; cbn; intros s fs H.
  - injection H as <-. constructor.
  - destruct (update _ _ _ _ _) as [s' [out|e]] eqn:E; [|discriminate].
    destruct (play c s' ins) as [fs'|] eqn:Ep; [|discriminate]. injection H as <-.
    constructor; auto.
Qed.

Definition frames (c : tconf FO) (s : st FO) (ins : list input) : list (frame FO) :=
  match play c s ins with Some fs => fs | None => [] end.
Lemma frames_video c s ins : (match play c s ins with Some _ => true | None => false end) = true ->
  video c s (frames c s ins).
Proof. unfold frames. destruct (play c s ins) eqn:E; [|discriminate]. intros _. eapply play_video; eauto. Qed.

(** Decision procedures. *)
Definition inb (x : nat) (l : list nat) : bool := existsb (Nat.eqb x) l.
Lemma inb_In x l : inb x l = true <-> In x l.
Proof.
  unfold inb. rewrite existsb_exists. split.
  - intros (y & Hy & E). apply Nat.eqb_eq in E. subst. auto.
  - intros H. exists x. split; auto. apply Nat.eqb_refl.
Qed.
Lemma inb_not_In x l : inb x l = false <-> ~ In x l.
Proof. rewrite <- inb_In. destruct (inb x l); split; intros; try discriminate; auto. destruct H; auto. Qed.

Definition seenb (i : nat) (f : frame FO) : bool := inb (last_det (f_post f) i) (f_dets f).
Definition freshb (i : nat) (f : frame FO) : bool := negb (inb (last_det (f_pre f) i) (f_dets f)).
Lemma all_seen_fresh i (P : frame FO -> bool) fs :
  forallb (fun f => P f && seenb i f && freshb i f) fs = true ->
  forall f, In f fs -> P f = true /\ seen f i /\ fresh f i.
Proof.
  rewrite forallb_forall. intros H f Hf. apply H in Hf. apply andb_prop in Hf as [Hf Hc]. apply andb_prop in Hf as [Ha Hb].
  split; auto. split; [apply inb_In; auto|]. apply inb_not_In, negb_true_iff. auto.
Qed.
Lemma none_seen i fs : forallb (fun f => negb (seenb i f)) fs = true -> forall f : frame FO, In f fs -> ~ seen f i.
Proof. rewrite forallb_forall. intros H f Hf. apply inb_not_In, negb_true_iff. exact (H f Hf). Qed.

End Videos.
Arguments input N : clear implicits.

(** A detection at [x] under reference [r], passed alone. *)
Definition at_ (r : nat) (x : Q) : input QNum := MkInput [(r, ex_det x)] [r] 1 None.
Definition nothing : input QNum := MkInput [] [] 1 None.

Definition ex_start : st exF := MkSt (fun _ => ex_det 0) 0 (fun _ => ex_dummy) [] 0 0.
Lemma ex_start_state c : tracker_state c ex_start.
Proof. constructor. Qed.
Definition last_state {N : Num} {FO : filter_ops N} (s : st FO) (fs : list (frame FO)) : st FO := last (map f_post fs) s.
Lemma last_cons {A} (l : list A) : forall a d, last (a :: l) d = last l a.
Proof.
  induction l as [|b l IH]; intros a d; [reflexivity|].
  change (last (a :: b :: l) d) with (last (b :: l) d). rewrite IH, IH. reflexivity.
Qed.
Lemma last_state_ok {N : Num} {FO : filter_ops N} (c : tconf FO) s fs : tracker_state c s -> video c s fs -> tracker_state c (last_state s fs).
Proof.
  unfold last_state. intros Hs V. revert Hs. induction V as [s|s h g dets p ct s' out fs Hg E V IH]; intros Hs; [exact Hs|].
  assert (H' : tracker_state c s').
  { pose proof (ts_update c _ (Some dets) p ct (ts_meanwhile c s h g Hs Hg)) as X. rewrite E in X. exact X. }
  specialize (IH H'). cbn [map f_post]. rewrite last_cons. exact IH.
Qed.

(** Three calls with a detection near 0: object 1 is created, initialized, and reaches hit_counter 3. *)
Definition ex_warm : list (input QNum) := [at_ 1 0; at_ 2 1; at_ 3 2].
Definition ex_s3 : st exF := last_state ex_start (frames ex_conf ex_start ex_warm).
Lemma ex_s3_state : tracker_state ex_conf ex_s3.
Proof. apply last_state_ok; [constructor|]. apply frames_video. vm_compute. reflexivity. Qed.
Definition ex_r3 (r : Z) : st exF := last_state ex_start (frames (ex_conf_reid r) ex_start ex_warm).

(** Splitting a list without evaluating it. *)
Lemma snoc_split {A} (l : list A) d n : length l = S n -> firstn n l ++ [nth n l d] = l.
Proof.
  revert l. induction n as [|n IH]; intros [|x l] H; cbn in *; try discriminate.
  - destruct l; [reflexivity|discriminate].
  - f_equal. apply IH. congruence.
Qed.
Lemma cons_split {A} (l : list A) d n : length l = S n -> l = hd d l :: tl l.
Proof. destruct l; [discriminate|reflexivity]. Qed.
Lemma list1 {A} (l : list A) d : length l = 1 -> [nth 0 l d] = l.
Proof. destruct l as [|a [|b l]]; try discriminate. reflexivity. Qed.
Lemma list2 {A} (l : list A) d : length l = 2 -> [nth 0 l d; nth 1 l d] = l.
Proof. destruct l as [|a [|b [|c l]]]; try discriminate. reflexivity. Qed.
Lemma list3 {A} (l : list A) d : length l = 3 -> [nth 0 l d; nth 1 l d; nth 2 l d] = l.
Proof. destruct l as [|a [|b [|c [|e l]]]]; try discriminate. reflexivity. Qed.
Lemma video_eq {N : Num} {FO : filter_ops N} (c : tconf FO) s l l' : l = l' -> video c s l' -> video c s l.
Proof. intros ->. auto. Qed.
Ltac by_in := first [refine (proj1 (inb_In _ _) _) | refine (proj1 (inb_not_In _ _) _)]; vm_compute; reflexivity.

(** Checking a numbered property of all elements. *)
Fixpoint forall_from {A} (P : nat -> A -> bool) (m : nat) (l : list A) : bool :=
  match l with [] => true | x :: l' => P m x && forall_from P (S m) l' end.
Lemma forall_from_ok {A} (P : nat -> A -> bool) l : forall m, forall_from P m l = true ->
  forall n x, nth_error l n = Some x -> P (m + n) x = true.
Proof.
  induction l as [|y l IH]; intros m H n x Hx; [destruct n; discriminate|]. cbn in H. apply andb_prop in H as [A1 A2].
  destruct n as [|n]; cbn in Hx; [injection Hx as <-; rewrite Nat.add_0_r; exact A1|].
  rewrite Nat.add_succ_r. exact (IH _ A2 _ _ Hx).
Qed.

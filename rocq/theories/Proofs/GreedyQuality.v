(** How good the greedy matching is: at least half as many pairs as any other, and what a larger threshold changes. *)
From Coq Require Import ZArith QArith Reals Lra List Arith Lia Sorting.Sorted.
From Verif Require Import Model.Num Model.Base Model.Matching Model.Filter Model.Tracker
  Spec.MatchingSpec Spec.CallSpec Spec.PhasesSpec Spec.QualitySpec
  Proofs.NumLaws Proofs.MatchingProofs Proofs.GreedyProofs Proofs.GreedySub Proofs.Effect Proofs.CallProps Proofs.PhasesProofs Proofs.SceneProofs.
Import ListNotations.
Local Open Scope nat_scope.

Section P.
Context {N : Num}.
Variable laws : NumLaws N.
Notation dv := (dval N).

(** ** Half of the largest matching *)
Lemma filter_split {A} (f : A -> bool) l : length l = length (filter f l) + length (filter (fun x => negb (f x)) l).
Proof. induction l as [|a l IH]; cbn; [reflexivity|]. destruct (f a); cbn; lia. Qed.
Lemma NoDup_map_filter {A B} (g : A -> B) (f : A -> bool) l : NoDup (map g l) -> NoDup (map g (filter f l)).
Proof.
  induction l as [|a l IH]; cbn; intros H; [constructor|]. inversion H as [|? ? H1 H2]; subst. destruct (f a); cbn; auto.
  constructor; auto. intros X. apply H1. apply in_map_iff in X as (x & E & X). apply filter_In in X as [X _].
  rewrite <- E. apply in_map; exact X.
Qed.
Lemma maximal_half (ok : nat -> nat -> Prop) (P Q : list (nat * nat)) :
  (forall i j, In (i, j) Q -> In i (map fst P) \/ In j (map snd P)) -> one_to_one Q -> length Q <= 2 * length P.
Proof.
  intros C [Q1 Q2]. set (f := fun q : nat * nat => if in_dec Nat.eq_dec (fst q) (map fst P) then true else false).
  rewrite (filter_split f Q).
  assert (A : length (filter f Q) <= length P).
  { rewrite <- (map_length fst (filter f Q)), <- (map_length fst P). apply NoDup_incl_length; [apply NoDup_map_filter; exact Q1|].
    intros x X. apply in_map_iff in X as (q & <- & X). apply filter_In in X as [_ X]. unfold f in X. destruct in_dec; auto; discriminate. }
  assert (B : length (filter (fun x => negb (f x)) Q) <= length P).
  { rewrite <- (map_length snd (filter _ Q)), <- (map_length snd P). apply NoDup_incl_length; [apply NoDup_map_filter; exact Q2|].
    intros x X. apply in_map_iff in X as (q & <- & X). apply filter_In in X as [X0 X]. unfold f in X. destruct in_dec as [|n]; [discriminate|].
    destruct q as [i j]. destruct (C i j X0) as [Y|Y]; [contradiction|exact Y]. }
  lia.
Qed.

Lemma stable_covers n m (d : nat -> nat -> dv) thr P i j : stable n m d thr P -> i < n -> j < m -> dlt (d i j) thr ->
  In i (map fst P) \/ In j (map snd P).
Proof.
  intros S Hi Hj Hd. destruct (S i j Hi Hj Hd) as [H|[(j' & H & _)|(i' & H & _)]].
  - left. apply (in_map fst) in H. exact H.
  - left. apply (in_map fst) in H. exact H.
  - right. apply (in_map snd) in H. exact H.
Qed.

Theorem stable_half n m (d : nat -> nat -> dv) thr P Q : stable n m d thr P ->
  one_to_one Q -> in_range n m Q -> below d thr Q -> length Q <= 2 * length P.
Proof.
  intros S O R B. apply (maximal_half (fun _ _ => True)); auto. intros i j H.
  destruct (R i j H) as [Hi Hj]. eapply stable_covers; eauto.
Qed.

Theorem match_half rnd n m thr (M : matrix N) dis ois Q :
  rect n m M -> nan_free M -> dis_nan (rnd (dsucc thr)) = dis_nan thr -> match_dets_and_objs rnd thr M = Some (dis, ois) ->
  one_to_one Q -> in_range n m Q -> below (entry M) thr Q -> length Q <= 2 * length dis.
Proof.
  intros R F K E O I B. destruct (match_correct laws rnd n m thr M dis ois R F K E) as (L & _ & _ & _ & S & _).
  replace (length dis) with (length (combine dis ois)) by (rewrite combine_length; lia).
  eapply stable_half; eauto.
Qed.

(** ** Nothing to choose: every row and every column has at most one cell below the threshold *)
Theorem match_separated rnd n m thr (M : matrix N) dis ois :
  rect n m M -> nan_free M -> dis_nan (rnd (dsucc thr)) = dis_nan thr -> match_dets_and_objs rnd thr M = Some (dis, ois) ->
  (forall i j j', i < n -> j < m -> j' < m -> dlt (entry M i j) thr -> dlt (entry M i j') thr -> j = j') ->
  (forall i i' j, i < n -> i' < n -> j < m -> dlt (entry M i j) thr -> dlt (entry M i' j) thr -> i = i') ->
  forall i j, In (i, j) (combine dis ois) <-> i < n /\ j < m /\ dlt (entry M i j) thr.
Proof.
  intros R F K E U1 U2 i j. destruct (match_correct laws rnd n m thr M dis ois R F K E) as (L & O & I & B & S & _).
  split; [intros H; destruct (I i j H); auto|]. intros (Hi & Hj & Hd).
  destruct (S i j Hi Hj Hd) as [H|[(j' & H & _)|(i' & H & _)]]; auto.
  - destruct (I _ _ H) as [_ Hj']. rewrite (U1 i j j'); auto.
  - destruct (I _ _ H) as [Hi' _]. rewrite (U2 i i' j); auto.
Qed.

(** ** A larger threshold *)
Lemma greedy_larger (d : nat -> nat -> dv) thr thr' rows cols P : dis_nan thr' = false -> dle thr thr' ->
  greedy d thr rows cols P -> forall Q, greedy d thr' rows cols Q ->
  exists new, Q = P ++ new /\ forall i j, In (i, j) new -> ~ dlt (d i j) thr.
Proof.
  intros Hn Hle. induction 1 as [rows cols Hno|rows cols i j P Hi Hj Hlt Hmin HP IH]; intros Q HQ.
  - exists Q. split; [reflexivity|]. intros i j Hin. revert Hno.
    induction HQ as [rows cols Hno'|rows cols i0 j0 Q Hi Hj Hlt Hmin HQ IH]; intros Hno; [destruct Hin|].
    destruct Hin as [E|Hin]; [injection E as <- <-; apply Hno; auto|].
    apply IH; auto. intros a b Ha Hb. apply in_remove in Ha, Hb. apply Hno; [apply Ha|apply Hb].
  - assert (Hlt' : dlt (d i j) thr') by (eapply (dlt_le_trans laws); eauto).
    inversion HQ as [? ? Hno|? ? i' j' Q' Hi' Hj' Hlt'' Hmin' HQ']; subst; [exfalso; eapply Hno; eauto|].
    assert (E : (i, j) = (i', j')).
    { destruct (Hmin i' j' Hi' Hj') as [A1 A2]. destruct (Hmin' i j Hi Hj) as [B1 B2].
      unfold before, dlt, dle in *. cbn in *.
      destruct (lt_eq_lt_dec i i') as [[C|C]|C]; [rewrite B2 in A1 by auto; discriminate| |rewrite A2 in B1 by auto; discriminate].
      destruct (lt_eq_lt_dec j j') as [[D|D]|D]; [rewrite B2 in A1 by auto; discriminate|congruence|rewrite A2 in B1 by auto; discriminate]. }
    injection E as <- <-. destruct (IH Q' HQ') as (new & -> & Hnew). exists new. auto.
Qed.

Theorem match_larger rnd rnd' n m thr thr' (M : matrix N) dis ois dis' ois' :
  rect n m M -> nan_free M -> dis_nan (rnd (dsucc thr)) = dis_nan thr -> dis_nan (rnd' (dsucc thr')) = dis_nan thr' ->
  dis_nan thr' = false -> dle thr thr' ->
  match_dets_and_objs rnd thr M = Some (dis, ois) -> match_dets_and_objs rnd' thr' M = Some (dis', ois') ->
  exists nd no, dis' = dis ++ nd /\ ois' = ois ++ no /\ forall i j, In (i, j) (combine nd no) -> ~ dlt (entry M i j) thr.
Proof.
  intros R F K K' Hn Hle E E'.
  pose proof (match_greedy laws rnd n m thr M dis ois R F K E) as G.
  pose proof (match_greedy laws rnd' n m thr' M dis' ois' R F K' E') as G'.
  destruct (match_correct laws rnd n m thr M dis ois R F K E) as (L & _).
  destruct (match_correct laws rnd' n m thr' M dis' ois' R F K' E') as (L' & _).
  destruct (greedy_larger _ _ _ _ _ _ Hn Hle G _ G') as (new & En & Hnew).
  assert (S1 : split (combine dis' ois') = (dis', ois')) by (apply combine_split; auto).
  assert (S2 : split (combine dis ois) = (dis, ois)) by (apply combine_split; auto).
  exists (map fst new), (map snd new).
  assert (F1 : forall (l : list (nat * nat)), split l = (map fst l, map snd l)).
  { induction l as [|[a b] l IHl]; cbn; [reflexivity|]. rewrite IHl. reflexivity. }
  rewrite F1 in S1, S2. injection S1 as A1 A2. injection S2 as B1 B2. rewrite En, map_app in A1, A2.
  split; [congruence|]. split; [congruence|].
  assert (F2 : combine (map fst new) (map snd new) = new) by (clear; induction new as [|[a b] l IHl]; cbn; congruence).
  rewrite F2. exact Hnew.
Qed.

End P.

(** ** One call with a larger threshold *)
Section Call.
Context {N : Num} {FO : filter_ops N} (laws : NumLaws N).
Notation st := (st FO).

Lemma good_threshold (c : tconf FO) t (s : st) : good c s -> good (with_threshold c t) s.
Proof. intros [T C]. split; [exact T|]. intros i Hi. destruct (C i Hi). constructor; auto. Qed.

Lemma sorted_same_members (l l' : list nat) : StronglySorted lt l -> StronglySorted lt l' -> (forall x, In x l <-> In x l') -> l = l'.
Proof.
  intros S. revert l'. induction S as [|a l S IH F]; intros l' S' H.
  - destruct l' as [|b l']; [reflexivity|]. exfalso. apply (H b). left; reflexivity.
  - destruct S' as [|b l' S' F']; [exfalso; apply (H a); left; reflexivity|].
    rewrite Forall_forall in F, F'.
    assert (a = b).
    { destruct (proj1 (H a) (or_introl eq_refl)) as [E|X]; [auto|]. destruct (proj2 (H b) (or_introl eq_refl)) as [E|Y]; [auto|].
      specialize (F _ Y). specialize (F' _ X). lia. }
    subst b. f_equal. apply IH; auto. intros x. split; intros X.
    + destruct (proj1 (H x) (or_intror X)) as [E|Y]; auto. subst x. specialize (F _ X). lia.
    + destruct (proj2 (H x) (or_intror X)) as [E|Y]; auto. subst x. specialize (F' _ X). lia.
Qed.

Theorem call_larger (c : tconf FO) t dets p ct (s s1 s2 : st) out1 out2 : rnd_ok (tc_rnd c) -> tracker_state c s ->
  dis_nan t = false -> dle (tc_threshold c) t -> dets <> [] ->
  update c (Some dets) p ct s = (s1, Ret out1) -> update (with_threshold c t) (Some dets) p ct s = (s2, Ret out2) ->
  exists ini uni M1 M2 M2' P1 P2 P2' new,
    two_phases c dets s (snd (begin_update c dets ct s)) s1 ini uni M1 M2 P1 P2 /\
    two_phases (with_threshold c t) dets s (snd (begin_update c dets ct s)) s2 ini uni M1 M2' (P1 ++ new) P2' /\
    forall a b, In (a, b) new -> ~ dlt (entry M1 a b) (tc_threshold c).
Proof.
  intros Hr Ht Hn Hle Hd E1 E2. apply tracker_state_good in Ht.
  destruct (call_phases_good laws _ _ _ _ _ _ _ Hr Ht E1) as (ini & uni & M1 & M2 & P1 & P2 & A & B & _).
  destruct (call_phases_good laws _ _ _ _ _ _ _ (Hr : rnd_ok (tc_rnd (with_threshold c t))) (good_threshold _ t _ Ht) E2)
    as (ini' & uni' & M1' & M2' & P1' & P2' & A' & B' & _).
  assert (ini' = ini) as ->.
  { apply sorted_same_members; [apply B'|apply B|]. intros x. rewrite (tp_ini _ _ _ _ _ _ _ _ _ _ _ A), (tp_ini _ _ _ _ _ _ _ _ _ _ _ A'). reflexivity. }
  assert (uni' = uni) as ->.
  { apply sorted_same_members; [apply B'|apply B|]. intros x. rewrite (tp_uni _ _ _ _ _ _ _ _ _ _ _ A), (tp_uni _ _ _ _ _ _ _ _ _ _ _ A'). reflexivity. }
  assert (M1' = M1) as ->.
  { pose proof (tp_matrix1 _ _ _ _ _ _ _ _ _ _ _ A Hd) as X. pose proof (tp_matrix1 _ _ _ _ _ _ _ _ _ _ _ A' Hd) as Y.
    assert (Z : Ret M1 = Ret M1') by (rewrite <- X, <- Y; reflexivity). injection Z as ->. reflexivity. }
  destruct (greedy_larger laws _ _ _ _ _ _ Hn Hle (dr_greedy1 _ _ _ _ _ _ _ _ _ _ B) _ (dr_greedy1 _ _ _ _ _ _ _ _ _ _ B')) as (new & -> & Hnew).
  exists ini, uni, M1, M2, M2', P1, P2, P2', new. auto.
Qed.

Theorem call_half (c : tconf FO) dets p ct (s s' : st) out : rnd_ok (tc_rnd c) -> tracker_state c s ->
  update c (Some dets) p ct s = (s', Ret out) ->
  exists ini uni M1 M2 P1 P2,
    two_phases c dets s (snd (begin_update c dets ct s)) s' ini uni M1 M2 P1 P2 /\
    (forall Q, assignment (length dets) (length ini) (entry M1) (tc_threshold c) Q -> length Q <= 2 * length P1) /\
    (forall Q, assignment (length (others (map fst P1) 0 dets)) (length uni) (entry M2) (tc_threshold c) Q -> length Q <= 2 * length P2).
Proof.
  intros Hr Ht E. destruct (call_phases laws _ _ _ _ _ _ _ Hr Ht E) as (ini & uni & M1 & M2 & P1 & P2 & A & B & _).
  exists ini, uni, M1, M2, P1, P2. split; [exact A|].
  destruct (tp_match1 _ _ _ _ _ _ _ _ _ _ _ A) as (O1 & I1 & _ & S1).
  destruct (tp_match2 _ _ _ _ _ _ _ _ _ _ _ A) as (_ & _ & _ & S2).
  split; intros Q (X & Y & Z); eapply stable_half; eauto.
Qed.
End Call.

(** ** The bound of one half is reached for every size *)
Section Tight.
Local Open Scope nat_scope.
Definition chain (i j : nat) : Q := if Nat.eqb j i then 2 else if andb (Nat.even i) (Nat.eqb j (S i)) then 1 else 9.
Definition chain_table (k : nat) : list (list Q) := map (fun i => map (chain i) (seq 0 (2 * k))) (seq 0 (2 * k)).
Definition cd (i j : nat) : dval QNum := DFin (chain i j : QNum).
Definition three : dval QNum := DFin (3%Q : QNum).

Lemma chain_diag i : chain i i = 2%Q.
Proof. unfold chain. rewrite Nat.eqb_refl. reflexivity. Qed.
Lemma chain_step t : chain (2 * t) (S (2 * t)) = 1%Q.
Proof.
  unfold chain. destruct (Nat.eqb_spec (S (2 * t)) (2 * t)); [lia|]. rewrite Nat.eqb_refl, Nat.even_mul. reflexivity.
Qed.
Lemma chain_cases i j : (i = j /\ chain i j = 2%Q) \/ (exists t, i = 2 * t /\ j = S (2 * t) /\ chain i j = 1%Q) \/ chain i j = 9%Q.
Proof.
  unfold chain. destruct (Nat.eqb_spec j i); [left; auto|]. destruct (Nat.even i) eqn:E; cbn [andb]; auto.
  destruct (Nat.eqb_spec j (S i)); auto. apply Nat.even_spec in E as [t ->]. right. left. exists t. auto.
Qed.

Lemma chain_greedy k : forall r rows cols t, k = t + r ->
  (forall i, In i rows -> i < 2 * k /\ (Nat.odd i = true \/ 2 * t <= i)) ->
  (forall j, In j cols -> j < 2 * k /\ (Nat.even j = true \/ 2 * t <= j)) ->
  (forall i, 2 * t <= i < 2 * k -> In i rows /\ In i cols) ->
  greedy cd three rows cols (map (fun u => (2 * u, S (2 * u))) (seq t r)).
Proof.
  induction r as [|r IH]; intros rows cols t Hk HR HC HI.
  - constructor. intros i j Hi Hj. destruct (HR i Hi) as [A1 A2]. destruct (HC j Hj) as [B1 B2].
    destruct A2 as [A2|A2]; [|lia]. destruct B2 as [B2|B2]; [|lia]. rewrite <- Nat.negb_even in A2.
    unfold dlt, cd, three. destruct (chain_cases i j) as [(-> & _)|[(u & -> & _ & _)|E]].
    + rewrite B2 in A2. discriminate.
    + rewrite Nat.even_mul in A2. discriminate.
    + rewrite E. discriminate.
  - cbn [seq map]. apply greedy_pick.
    + apply HI. lia.
    + apply HI. lia.
    + unfold dlt, cd, three. rewrite chain_step. reflexivity.
    + intros i j Hi Hj. unfold dle, dlt, cd, before. rewrite chain_step. cbn [fst snd].
      destruct (chain_cases i j) as [(-> & E)|[(u & -> & -> & E)|E]]; rewrite E.
      * split; reflexivity.
      * split; [reflexivity|]. intros Hb. exfalso. destruct (HR _ Hi) as [_ [X|X]]; [|lia].
        rewrite <- Nat.negb_even, Nat.even_mul in X. discriminate.
      * split; reflexivity.
    + apply IH; [lia| | |].
      * intros i Hi. apply in_remove in Hi as [Hi Hne]. destruct (HR i Hi) as [A1 [A2|A2]]; auto. split; auto.
        destruct (Nat.eq_dec i (S (2 * t))) as [->|]; [|right; lia].
        left. rewrite <- Nat.negb_even, Nat.even_succ, <- Nat.negb_even, Nat.even_mul. reflexivity.
      * intros i Hi. apply in_remove in Hi as [Hi Hne]. destruct (HC i Hi) as [A1 [A2|A2]]; auto. split; auto.
        destruct (Nat.eq_dec i (2 * t)) as [->|]; [left; rewrite Nat.even_mul; reflexivity|right; lia].
      * intros i Hi. split; apply in_in_remove; try lia; apply HI; lia.
Qed.

Lemma map_rect {A} n m (f : nat -> nat -> A) : rect n m (map (fun i => map (f i) (seq 0 m)) (seq 0 n)).
Proof.
  split; [rewrite map_length, seq_length; reflexivity|]. apply Forall_forall. intros r Hr.
  apply in_map_iff in Hr as (i & <- & _). rewrite map_length, seq_length. reflexivity.
Qed.
Lemma map_entry n m (f : nat -> nat -> dval QNum) i j : i < n -> j < m -> entry (map (fun i => map (f i) (seq 0 m)) (seq 0 n)) i j = f i j.
Proof.
  intros Hi Hj. unfold entry.
  rewrite (nth_indep _ [] (map (f 0) (seq 0 m))) by (rewrite map_length, seq_length; auto).
  rewrite (map_nth (fun i => map (f i) (seq 0 m))), seq_nth by auto.
  rewrite (nth_indep _ DNaN (f (0 + i) 0)) by (rewrite map_length, seq_length; auto).
  rewrite map_nth, seq_nth by auto. reflexivity.
Qed.
Lemma greedy_ext {N : Num} (d d' : nat -> nat -> dval N) thr rows cols P : greedy d thr rows cols P ->
  (forall i j, In i rows -> In j cols -> d i j = d' i j) -> greedy d' thr rows cols P.
Proof.
  induction 1 as [rows cols Hno|rows cols i j P Hi Hj Hlt Hmin HP IH]; intros E.
  - constructor. intros i j Hi Hj. rewrite <- E; auto.
  - constructor; auto.
    + rewrite <- E; auto.
    + intros a b Ha Hb. rewrite <- !E; auto.
    + apply IH. intros a b Ha Hb. apply in_remove in Ha, Hb. apply E; [apply Ha|apply Hb].
Qed.

Theorem half_tight (k : nat) : exists (M : matrix QNum) dis ois Q,
  rect (2 * k) (2 * k) M /\ nan_free M /\ match_dets_and_objs (fun x => x) three M = Some (dis, ois) /\
  assignment (2 * k) (2 * k) (entry M) three Q /\ length dis = k /\ length Q = 2 * k.
Proof.
  set (M := map (fun i => map (cd i) (seq 0 (2 * k))) (seq 0 (2 * k))).
  assert (R : rect (2 * k) (2 * k) M) by apply map_rect.
  assert (E : forall i j, i < 2 * k -> j < 2 * k -> entry M i j = cd i j) by (intros; apply map_entry; auto).
  assert (F : nan_free M).
  { unfold nan_free. destruct (existsb dis_nan (concat M)) eqn:X; [|reflexivity]. exfalso.
    apply existsb_exists in X as (x & Hx & X). apply (in_concat_entry _ _ _ _ R) in Hx as (i & j & Hi & Hj & ->).
    rewrite E in X by auto. discriminate. }
  destruct (match_exists QNum_laws (fun x => x) _ _ three M R F eq_refl (or_introl eq_refl)) as (dis & ois & EM).
  exists M, dis, ois, (map (fun i => (i, i)) (seq 0 (2 * k))).
  split; [exact R|]. split; [exact F|]. split; [exact EM|]. split; [|split].
  - split; [|split].
    + split; rewrite map_map; cbn; rewrite map_id; apply seq_NoDup.
    + intros i j H. apply in_map_iff in H as (u & X & H). injection X as <- <-. apply in_seq in H. lia.
    + intros i j H. apply in_map_iff in H as (u & X & H). injection X as <- <-. apply in_seq in H.
      rewrite E by lia. unfold dlt, cd. rewrite chain_diag. reflexivity.
  - pose proof (match_greedy QNum_laws (fun x => x) _ _ three M dis ois R F eq_refl EM) as G.
    assert (G' : greedy (entry M) three (seq 0 (2 * k)) (seq 0 (2 * k)) (map (fun u => (2 * u, S (2 * u))) (seq 0 k))).
    { apply greedy_ext with (d := cd).
      - apply (chain_greedy k k); [lia| | |]; intros i Hi; try (apply in_seq in Hi); rewrite ?in_seq; lia.
      - intros i j Hi Hj. apply in_seq in Hi, Hj. rewrite E by lia. reflexivity. }
    destruct (match_correct QNum_laws (fun x => x) _ _ three M dis ois R F eq_refl EM) as (L & _).
    pose proof (greedy_unique _ _ _ _ _ G _ G') as X. apply (f_equal (@length _)) in X.
    rewrite combine_length, map_length, seq_length in X. lia.
  - rewrite map_length, seq_length. reflexivity.
Qed.
End Tight.

(** ** The total distance is not bounded by a multiple of the best one *)
Section Total.
Local Open Scope R_scope.
Theorem total_unbounded (K : R) : exists (w : list (list R)) thr dis ois Q,
  let M : matrix RNum := map (map (fun x => DFin (x : RNum))) w in
  rect 2 2 M /\ nan_free M /\ match_dets_and_objs (fun x => x) (DFin (thr : RNum)) M = Some (dis, ois) /\
  assignment 2 2 (entry M) (DFin (thr : RNum)) Q /\ length Q = length dis /\
  0 < @total RNum w Q /\ K * @total RNum w Q < @total RNum w (combine dis ois).
Proof.
  set (X := Rmax 2 (4 * K)). assert (H2 : 2 <= X) by apply Rmax_l. assert (HK : 4 * K <= X) by apply Rmax_r. clearbody X.
  set (w := [[1; 2]; [2; X]]). set (M := map (map (fun x => @DFin RNum x)) w).
  assert (HR : rect 2 2 M) by (split; [reflexivity|repeat constructor]).
  assert (F : nan_free M) by reflexivity.
  set (thr := X + 1). assert (Lt : forall a b : R, a < b -> dlt (@DFin RNum a) (@DFin RNum b)) by (intros; apply dlt_R; auto).
  assert (Le : forall a b : R, a <= b -> dle (@DFin RNum a) (@DFin RNum b)).
  { intros a b H. unfold dle. destruct (dltb (@DFin RNum b) (@DFin RNum a)) eqn:E; [|reflexivity]. apply dlt_R in E. lra. }
  destruct (match_exists RNum_laws (fun x => x) _ _ (@DFin RNum thr) M HR F eq_refl (or_introl (dsucc_ge RNum_laws _))) as (dis & ois & EM).
  assert (G' : greedy (entry M) (@DFin RNum thr) (seq 0 2) (seq 0 2) [(0, 0); (1, 1)]%nat).
  { apply greedy_pick; [left; reflexivity|left; reflexivity|apply Lt; unfold thr; lra| |].
    - intros i j [<-|[<-|[]]] [<-|[<-|[]]]; unfold before; cbn [fst snd]; (split; [apply Le; lra|]); intros [B|[B C]]; exfalso; lia.
    - apply greedy_pick; [left; reflexivity|left; reflexivity|apply Lt; unfold thr; lra| |].
      + intros i j [<-|[]] [<-|[]]; unfold before; cbn [fst snd]; (split; [apply Le; lra|]); intros [B|[B C]]; exfalso; lia.
      + constructor. intros i j []. }
  pose proof (match_greedy RNum_laws (fun x => x) _ _ (@DFin RNum thr) M dis ois HR F eq_refl EM) as G.
  pose proof (greedy_unique _ _ _ _ _ G _ G') as XX.
  destruct (match_correct RNum_laws (fun x => x) _ _ (@DFin RNum thr) M dis ois HR F eq_refl EM) as (L & _).
  exists w, thr, dis, ois, [(0, 1); (1, 0)]%nat. cbv zeta. fold M.
  split; [exact HR|]. split; [exact F|]. split; [exact EM|].
  split; [|split].
  - split; [split; repeat constructor; cbn; intuition discriminate|]. split.
    + intros i j [E|[E|[]]]; injection E as <- <-; lia.
    + intros i j [E|[E|[]]]; injection E as <- <-; apply Lt; unfold thr; lra.
  - apply (f_equal (@length _)) in XX. rewrite combine_length in XX. cbn in XX. cbn. lia.
  - rewrite XX. unfold total. cbn. lra.
Qed.
End Total.

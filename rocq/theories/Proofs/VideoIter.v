(** One iterator over a video: when it stops, and what it leaves behind.  Used for C74. *)
From Coq Require Import ZArith QArith Bool Arith Ascii String List Lia.
From Verif Require Import Model.Num Model.Base Model.Strings Model.Metrics Model.Video Spec.MetricsSpec Spec.VideoSpec
  Proofs.VideoProofs Proofs.VideoPaths Proofs.VideoTheorems.
Import ListNotations.
Local Open Scope nat_scope.

Section I.
Context {Frame : Type} (W : world Frame).
Notation releases v := (List.length (filter (fun c : vcall Frame => match c with ReleaseCapture => true | _ => false end) (v_calls v))).

Lemma write_keeps f v : v_counter (fst (write W f v)) = v_counter v /\ releases (fst (write W f v)) = releases v.
Proof.
  unfold write. destruct (v_writer v); [cbn; rewrite filter_app, app_length; cbn; auto|]. destruct (codec_fourcc v (output_path W v)) as [cc|e]; [|auto].
  destruct (Nat.eqb (slen cc) 4); [|auto]. cbn. rewrite !filter_app, !app_length. cbn. split; [reflexivity|lia].
Qed.
Lemma done_idle acts : forall gens v, (forall i, In (Next i) acts -> i = 0) -> gens 0 = GDone ->
  snd (use W acts gens v) = [] /\ v_counter (fst (use W acts gens v)) = v_counter v /\ releases (fst (use W acts gens v)) = releases v.
Proof.
  induction acts as [|[i|f] acts IH]; intros gens v A G; [auto| |].
  - assert (i = 0) as -> by (apply A; left; reflexivity). cbn [use]. rewrite G. cbn [gen_next].
    specialize (IH (upd gens 0 GDone) v (fun i H => A i (or_intror H)) eq_refl). destruct (use W acts _ v) as [u fs]. exact IH.
  - cbn [use]. destruct (write_keeps f v) as [E1 E2]. rewrite <- E1, <- E2. apply IH; [intros i H; apply A; right; exact H|exact G].
Qed.

(** The first read that fails, or at which the clock has not moved, is the [k]-th. *)
Lemma use_stops fs acts : forall k gens v, (forall i, In (Next i) acts -> i = 0) -> gens 0 = GRunning -> v_open v = true -> k <= length fs ->
  (forall i, i < k -> w_reads W (v_source v) (v_reads v + i) = nth_error fs i /\ ~ (w_elapsed W (v_reads v + i) == 0)%Q) ->
  (w_reads W (v_source v) (v_reads v + k) = None \/ (w_elapsed W (v_reads v + k) == 0)%Q) ->
  snd (use W acts gens v) = firstn (Nat.min (nexts_in acts) k) fs /\
  v_counter (fst (use W acts gens v)) = v_counter v + Nat.min (nexts_in acts) (S k) /\
  releases (fst (use W acts gens v)) = releases v +
    (if nexts_in acts <=? k then 0 else match w_reads W (v_source v) (v_reads v + k) with None => 1 | Some _ => 0 end).
Proof.
  revert fs. induction acts as [|[i|f] acts IH]; intros fs k gens v A G O L R Stop.
  - cbn. repeat split; lia.
  - assert (i = 0) as -> by (apply A; left; reflexivity). assert (A' : forall i, In (Next i) acts -> i = 0) by (intros i H; apply A; right; exact H).
    unfold nexts_in. cbn [filter is_next List.length]. fold (nexts_in acts). cbn [use]. rewrite G. cbn [gen_next]. cbn [v_tick v_open v_source]. rewrite O. destruct k as [|k].
    + rewrite Nat.add_0_r in *. destruct (w_reads W (v_source v) (v_reads v)) as [f|] eqn:E.
      * destruct Stop as [X|X]; [discriminate|]. apply Qeq_bool_iff in X. rewrite X.
        destruct (done_idle acts (upd gens 0 GDone) (v_tick v) A' eq_refl) as (D1 & D2 & D3). destruct (use W acts _ (v_tick v)) as [u gs]. cbn [fst snd] in *. rewrite D1, D2, D3.
        cbn. repeat split; try lia.
      * match goal with |- context [use W acts ?g ?u] => destruct (done_idle acts g u A' eq_refl) as (D1 & D2 & D3); destruct (use W acts g u) as [u' gs] end. cbn [fst snd] in *. rewrite D1, D2, D3.
        destruct (v_writer (v_tick v)); cbn; rewrite ?filter_app, ?app_length; cbn; repeat split; lia.
    + destruct (R 0 ltac:(lia)) as [R0 T0]. rewrite Nat.add_0_r in R0, T0. destruct fs as [|f fs]; [cbn in L; lia|]. cbn in R0. rewrite R0.
      destruct (Qeq_bool (w_elapsed W (v_reads v)) 0) eqn:Eq; [apply Qeq_bool_eq in Eq; contradiction|].
      destruct (IH fs k (upd gens 0 GRunning) (v_tick v) A' eq_refl O ltac:(cbn in L; lia)) as (I1 & I2 & I3).
      * intros i Hi. cbn [v_tick v_source v_reads]. destruct (R (S i) ltac:(lia)) as [X Y]. replace (S (v_reads v) + i) with (v_reads v + S i) by lia. split; assumption.
      * cbn [v_tick v_source v_reads]. replace (S (v_reads v) + k) with (v_reads v + S k) by lia. exact Stop.
      * destruct (use W acts _ (v_tick v)) as [u gs]. cbn [fst snd] in *. rewrite I1, I2, I3. cbn [v_tick v_source v_reads v_counter v_calls].
        replace (S (v_reads v) + k) with (v_reads v + S k) by lia. cbn [Nat.min firstn Nat.leb]. repeat split; try lia; try reflexivity.
  - unfold nexts_in. cbn [filter is_next]. fold (nexts_in acts). cbn [use]. destruct (write_same W f v) as (E1 & E2 & E3). destruct (write_keeps f v) as [E4 E5].
    rewrite <- E2, <- E3 in R, Stop. destruct (IH fs k gens (fst (write W f v))) as (I1 & I2 & I3); auto; try congruence; [intros i H; apply A; right; exact H|].
    rewrite I1, I2, I3, E2, E3, E4, E5. auto.
Qed.

Definition capture_closed (v : video Frame) : nat := releases v.
Lemma one_iterator a c v acts fs : video_new W a c = Ret v -> (forall i, In (Next i) acts -> i = 0) -> has_frames (w_reads W (v_source v)) fs ->
  ((forall k, ~ (w_elapsed W k == 0)%Q) ->
     v_counter (fst (use W acts fresh_gens v)) = Nat.min (nexts_in acts) (S (length fs)) /\
     releases (fst (use W acts fresh_gens v)) = if nexts_in acts <=? length fs then 0 else 1) /\
  (forall k, k < length fs -> (w_elapsed W k == 0)%Q -> (forall i, i < k -> ~ (w_elapsed W i == 0)%Q) ->
     snd (use W acts fresh_gens v) = firstn (Nat.min (nexts_in acts) k) fs /\
     v_counter (fst (use W acts fresh_gens v)) = Nat.min (nexts_in acts) (S k) /\
     releases (fst (use W acts fresh_gens v)) = 0).
Proof.
  intros E A [H1 H2]. pose proof E as E0. apply video_new_names in E. destruct E as (_ & EC & _ & _ & _ & _ & R & Co & O & _).
  assert (Rel : releases v = 0) by (rewrite EC; reflexivity). split.
  - intros T. destruct (use_stops fs acts (length fs) fresh_gens v A eq_refl O (le_n _)) as (_ & S2 & S3).
    + intros i Hi. rewrite R. split; [apply H1, Hi|apply T].
    + rewrite R. left. exact H2.
    + rewrite S2, S3, Co, Rel, R. change (0 + length fs) with (length fs). rewrite H2. destruct (nexts_in acts <=? length fs); auto.
  - intros k Hk Ez Tn. destruct (use_stops fs acts k fresh_gens v A eq_refl O) as (S1 & S2 & S3).
    + lia.
    + intros i Hi. rewrite R. split; [apply H1; lia|apply Tn, Hi].
    + rewrite R. right. exact Ez.
    + rewrite S1, S2, S3, Co, Rel, R. change (0 + k) with k. rewrite (H1 k Hk). apply nth_error_Some in Hk. destruct (nth_error fs k); [|contradiction]. destruct (nexts_in acts <=? k); auto.
Qed.
(** What [next] does in that case. *)
Lemma still_clock v f : v_open v = true -> w_reads W (v_source v) (v_reads v) = Some f -> (w_elapsed W (v_reads v) == 0)%Q ->
  exists v', gen_next W GRunning v = (v', GDone, Raise EZeroDivisionError).
Proof. intros O R T. cbn. rewrite O, R. apply Qeq_bool_iff in T. rewrite T. eauto. Qed.
End I.

(** Proofs about reading and writing videos. *)
From Coq Require Import ZArith QArith Bool Arith Ascii String List Lia.
From Verif Require Import Model.Num Model.Base Model.Images Model.Strings Model.Metrics Model.Video Spec.MetricsSpec Spec.VideoSpec.
From Verif Require Import Proofs.MetricsProofs.
Import ListNotations.
Local Open Scope nat_scope.

Section P.
Context {Frame : Type} (W : world Frame).
Implicit Types (v : video Frame) (acts : list (action Frame)).

Lemma video_new_names a c v : video_new W a c = Ret v ->
  names_source W a (v_source v) /\ v_calls v = [OpenCapture (v_source v)] /\
  v_fps v = match va_fps a with Some f => f | None => w_fps W (v_source v) end /\
  v_output v = va_output a /\ v_fourcc v = va_fourcc a /\ v_ext v = va_ext a /\
  v_reads v = 0 /\ v_counter v = 0 /\ v_open v = true /\ v_writer v = false.
Proof.
  unfold video_new. destruct (va_input a) as [p|] eqn:EI, (va_camera a) as [[z|]|] eqn:EC; try discriminate.
  - fold (full_path W p). destruct (w_isfile W (full_path W p)) eqn:F; [|discriminate].
    destruct (Z.eqb_spec (w_count W (full_path W p)) 0) as [|NZ]; [discriminate|].
    injection 1 as <-. cbn. split; [|repeat (split; [reflexivity|]); reflexivity]. exact (names_file W a p EC EI F NZ).
  - injection 1 as <-. cbn. split; [|repeat (split; [reflexivity|]); reflexivity]. exact (names_camera W a z EI EC).
Qed.

Lemma video_new_accepts a c : (exists v, video_new W a c = Ret v) <-> exists s, names_source W a s.
Proof.
  split.
  - intros [v H]. exists (v_source v). apply video_new_names in H. tauto.
  - intros [s [z EI EC|p EC EI F NZ]]; unfold video_new; rewrite EI, EC; [eauto|].
    fold (full_path W p). rewrite F. destruct (Z.eqb_spec (w_count W (full_path W p)) 0); [contradiction|eauto].
Qed.
Lemma video_new_value_error a c : video_new W a c = Raise EValueError <-> bad_arguments a.
Proof.
  unfold video_new, bad_arguments. destruct (va_input a) as [p|], (va_camera a) as [[z|]|].
  - split; [intros _; right; left; split; discriminate|reflexivity].
  - split; [intros _; right; left; split; discriminate|reflexivity].
  - fold (full_path W p). split.
    + destruct (w_isfile W (full_path W p)); [destruct (w_count W (full_path W p) =? 0)%Z|]; discriminate.
    + intros [[E _]|[[_ E]|E]]; [discriminate|congruence|discriminate].
  - split; [discriminate|]. intros [[_ E]|[[E _]|E]]; [discriminate|congruence|discriminate].
  - split; [intros _; right; right; reflexivity|reflexivity].
  - split; [intros _; left; split; reflexivity|reflexivity].
Qed.
Lemma video_new_runtime_error a c e : video_new W a c = Raise e -> e <> EValueError ->
  e = ERuntimeError /\ va_camera a = None /\ exists p, va_input a = Some p /\ (w_isfile W (full_path W p) = false \/ w_count W (full_path W p) = 0%Z).
Proof.
  unfold video_new. destruct (va_input a) as [p|], (va_camera a) as [[z|]|]; try (injection 1 as <-; congruence); try discriminate.
  fold (full_path W p). destruct (w_isfile W (full_path W p)) eqn:F.
  - destruct (Z.eqb_spec (w_count W (full_path W p)) 0) as [E|]; [|discriminate]. injection 1 as <-. intros _. eauto 10.
  - injection 1 as <-. intros _. eauto 10.
Qed.

(* ---- iteration ---- *)
Lemma fuf_ext k : forall r r' : nat -> option Frame, (forall i, r i = r' i) -> frames_until_failure r k = frames_until_failure r' k.
Proof.
  induction k as [|k IH]; intros r r' E; [reflexivity|]. cbn. rewrite E. destruct (r' 0); [|reflexivity]. f_equal. apply IH. intros i; apply E.
Qed.
Lemma write_same f v : v_open (fst (write W f v)) = v_open v /\ v_reads (fst (write W f v)) = v_reads v /\ v_source (fst (write W f v)) = v_source v.
Proof.
  unfold write. destruct (v_writer v); [auto|]. destruct (codec_fourcc v (output_path W v)) as [cc|e]; [|auto]. destruct (Nat.eqb (slen cc) 4); auto.
Qed.
Lemma use_closed acts : forall gens v, v_open v = false -> snd (use W acts gens v) = [].
Proof.
  induction acts as [|[i|f] acts IH]; intros gens v C; [reflexivity| |].
  - cbn. destruct (gens i); unfold gen_next.
    + cbn [v_tick v_open]. rewrite C.
      match goal with |- context [use W acts ?g ?u] => specialize (IH g u); destruct (use W acts g u) end. cbn in *. apply IH.
      destruct (v_writer v); reflexivity.
    + match goal with |- context [use W acts ?g ?u] => specialize (IH g u); destruct (use W acts g u) end. cbn in *. auto.
  - cbn. apply IH. destruct (write_same f v) as (E & _). congruence.
Qed.
Context (time_passes : forall k, ~ (w_elapsed W k == 0)%Q).
Lemma elapsed_nz k : Qeq_bool (w_elapsed W k) 0 = false.
Proof. destruct (Qeq_bool (w_elapsed W k) 0) eqn:E; [|reflexivity]. apply Qeq_bool_eq in E. elim (time_passes k E). Qed.
Lemma use_yields acts : forall gens v, v_open v = true -> (forall i, gens i = GRunning) ->
  snd (use W acts gens v) = frames_until_failure (fun i => w_reads W (v_source v) (v_reads v + i)) (nexts_in acts).
Proof.
  induction acts as [|[i|f] acts IH]; intros gens v O G; [reflexivity| |].
  - cbn [use nexts_in filter is_next length frames_until_failure]. rewrite G. unfold gen_next. cbn [v_tick v_open v_source]. rewrite O, Nat.add_0_r.
    destruct (w_reads W (v_source v) (v_reads v)) as [f|] eqn:R.
    + rewrite elapsed_nz.
      match goal with |- context [use W acts ?g ?u] => assert (H := IH g u); destruct (use W acts g u) as [u' fs] end. cbn [snd] in *.
      rewrite H; [|exact O|intros j; unfold upd; destruct (Nat.eqb j i); [reflexivity|apply G]]. cbn.
      f_equal. apply fuf_ext. intros j. f_equal. lia.
    + match goal with |- context [use W acts ?g ?u] => assert (H := use_closed acts g u); destruct (use W acts g u) as [u' fs] end. cbn [snd] in *.
      apply H. destruct (v_writer v); reflexivity.
  - cbn [use nexts_in filter is_next]. destruct (write_same f v) as (E1 & E2 & E3). rewrite IH; [|congruence|exact G]. rewrite E2, E3. reflexivity.
Qed.

(* ---- writing ---- *)
Lemma next_same g v : let v' := fst (fst (gen_next W g v)) in
  output_path W v' = output_path W v /\ v_fps v' = v_fps v /\ v_fourcc v' = v_fourcc v /\ v_writer v' = v_writer v /\
  filter to_file (v_calls v') = filter to_file (v_calls v).
Proof.
  unfold gen_next. destruct g; [|cbn; auto 10]. cbn [v_tick v_open].
  destruct (if v_open v then w_reads W (v_source (v_tick v)) (v_reads v) else None).
  - destruct (Qeq_bool (w_elapsed W (v_reads v)) 0); cbn; auto 10.
  - cbn. destruct v as [? ? ? ? ? ? ? ? ? ? wr calls]; destruct wr; cbn; rewrite ?filter_app; cbn; rewrite ?app_nil_r; auto 10.
Qed.
Lemma use_writer acts : forall gens v, v_writer v = true ->
  filter to_file (v_calls (fst (use W acts gens v))) = filter to_file (v_calls v) ++ map WriteFrame (written acts).
Proof.
  induction acts as [|[i|f] acts IH]; intros gens v O; [cbn; rewrite app_nil_r; reflexivity| |].
  - cbn [use]. assert (E := next_same (gens i) v). destruct (gen_next W (gens i) v) as [[v' g'] r]. cbn in E. destruct E as (_ & _ & _ & E4 & E5).
    assert (H := IH (upd gens i g') v'). destruct (use W acts (upd gens i g') v') as [u' fs]. cbn [fst] in *. rewrite H by congruence.
    rewrite E5. reflexivity.
  - cbn [use]. unfold write. rewrite O. cbn [fst]. rewrite IH by exact O. cbn [v_call v_calls]. rewrite filter_app, <- app_assoc. reflexivity.
Qed.
Lemma codec_same v v' name : v_fourcc v' = v_fourcc v -> codec_fourcc v' name = codec_fourcc v name.
Proof. unfold codec_fourcc. intros ->. reflexivity. Qed.
Lemma opens_same v v' cc fs : output_path W v' = output_path W v -> v_fps v' = v_fps v -> opens_with W v' cc fs = opens_with W v cc fs.
Proof. unfold opens_with. intros -> ->. reflexivity. Qed.
Lemma use_not_writer cc acts : forall gens v, v_writer v = false -> codec_fourcc v (output_path W v) = Ret cc -> slen cc = 4 ->
  filter to_file (v_calls (fst (use W acts gens v))) = filter to_file (v_calls v) ++ opens_with W v cc (written acts).
Proof.
  intros gens v N C L. revert gens v N C. induction acts as [|[i|f] acts IH]; intros gens v N C; [cbn; rewrite app_nil_r; reflexivity| |].
  - cbn [use]. assert (E := next_same (gens i) v). destruct (gen_next W (gens i) v) as [[v' g'] r]. cbn in E. destruct E as (E1 & E2 & E3 & E4 & E5).
    assert (H := IH (upd gens i g') v'). destruct (use W acts (upd gens i g') v') as [u' fs]. cbn [fst] in *.
    rewrite H; [|congruence|rewrite E1, (codec_same v v' _ E3); exact C]. rewrite E5, (opens_same v v') by assumption. reflexivity.
  - cbn [use]. unfold write. rewrite N, C, L. cbn [Nat.eqb]. cbn [fst]. rewrite use_writer by reflexivity. cbn [v_call v_set_writer v_calls].
    rewrite !filter_app, <- !app_assoc. reflexivity.
Qed.
Lemma write_fails v f e : codec_fourcc v (output_path W v) = Raise e -> v_writer v = false -> write W f v = (v, Raise e).
Proof. unfold write. intros -> ->. reflexivity. Qed.

(* ---- never exhausted, never released ---- *)
Lemma write_no_release f v : existsb is_release (v_calls (fst (write W f v))) = existsb is_release (v_calls v).
Proof.
  unfold write. destruct (v_writer v); [cbn; rewrite existsb_app; cbn; apply orb_false_r|].
  destruct (codec_fourcc v (output_path W v)) as [cc|e]; [|reflexivity]. destruct (Nat.eqb (slen cc) 4); [|reflexivity].
  cbn. rewrite !existsb_app. cbn. rewrite !orb_false_r. reflexivity.
Qed.
Lemma fuf_len k : forall r : nat -> option Frame, length (frames_until_failure r k) <= k.
Proof. induction k as [|k IH]; intros r; cbn; [lia|]. destruct (r 0); cbn; [specialize (IH (fun i => r (S i))); lia|lia]. Qed.
Lemma use_no_release acts : forall gens v, v_open v = true -> (forall i, gens i = GRunning) ->
  length (frames_until_failure (fun i => w_reads W (v_source v) (v_reads v + i)) (nexts_in acts)) = nexts_in acts ->
  existsb is_release (v_calls (fst (use W acts gens v))) = existsb is_release (v_calls v).
Proof.
  induction acts as [|[i|f] acts IH]; intros gens v O G L; [reflexivity| |].
  - unfold nexts_in in L. cbn [filter is_next length] in L. fold (nexts_in acts) in L.
    cbn [frames_until_failure] in L. rewrite Nat.add_0_r in L. cbn [use]. rewrite G. unfold gen_next. cbn [v_tick v_open v_source]. rewrite O.
    destruct (w_reads W (v_source v) (v_reads v)) as [f|] eqn:R; [|discriminate L]. rewrite elapsed_nz.
    match goal with |- context [use W acts ?g ?u] => assert (H := IH g u); destruct (use W acts g u) as [u' fs] end. cbn [fst] in *.
    apply H; [exact O|intros j; unfold upd; destruct (Nat.eqb j i); [reflexivity|apply G]|].
    cbn [length] in L. injection L as L. rewrite <- L at 2. f_equal. apply fuf_ext. intros j. cbn. f_equal. lia.
  - cbn [use]. destruct (write_same f v) as (E1 & E2 & E3). rewrite IH; [apply write_no_release|congruence|exact G|]. rewrite E2, E3. exact L.
Qed.

(* ---- the loop ---- *)
Definition tail_calls (w : bool) : list (vcall Frame) := (if w then [ReleaseWriter] else []) ++ [ReleaseCapture; CloseWindows].
Lemma writes_app ws : forall acts gens v, v_writer v = true ->
  exists v', use W (map Write ws ++ acts) gens v = use W acts gens v' /\ v_calls v' = v_calls v ++ map WriteFrame ws /\ v_writer v' = true /\
    v_open v' = v_open v /\ v_reads v' = v_reads v /\ v_source v' = v_source v.
Proof.
  induction ws as [|f ws IH]; intros acts gens v Wr.
  - exists v. cbn. rewrite app_nil_r. auto 10.
  - cbn [map app use]. unfold write. rewrite Wr. cbn [fst]. destruct (IH acts gens (v_call (WriteFrame f) v) Wr) as (v' & E1 & E2 & E3 & E4 & E5 & E6).
    exists v'. rewrite E1, E2. cbn [v_call v_calls]. rewrite <- app_assoc. auto 10.
Qed.
Lemma loop_writer body fs : forall gens v, v_writer v = true -> v_open v = true -> gens 0 = GRunning ->
  has_frames (fun i => w_reads W (v_source v) (v_reads v + i)) fs ->
  v_calls (fst (use W (for_loop body fs) gens v)) = v_calls v ++ map WriteFrame (flat_map body fs) ++ tail_calls true.
Proof.
  induction fs as [|f fs IH]; intros gens v Wr O G [HF HN].
  - cbn in *. rewrite G. unfold gen_next. cbn [v_tick v_open v_source]. rewrite O. rewrite Nat.add_0_r in HN. rewrite HN. cbn. rewrite Wr. cbn.
    rewrite <- !app_assoc. reflexivity.
  - unfold for_loop. cbn [flat_map]. rewrite <- app_assoc. cbn [app use]. rewrite G. unfold gen_next. cbn [v_tick v_open v_source]. rewrite O.
    assert (R := HF 0 ltac:(cbn; lia)). rewrite Nat.add_0_r in R. cbn in R. rewrite R, elapsed_nz.
    destruct (writes_app (body f) (for_loop body fs) (upd gens 0 GRunning) (v_tick v) Wr) as (v' & E1 & E2 & E3 & E4 & E5 & E6).
    unfold for_loop in E1 |- *. rewrite E1. assert (H := IH (upd gens 0 GRunning) v' E3). unfold for_loop in H.
    destruct (use W _ _ v') as [u' fs']. cbn [fst] in *. rewrite H; [|rewrite E4; exact O|reflexivity|].
    + rewrite E2, map_app, <- !app_assoc. reflexivity.
    + rewrite E5, E6. split.
      * intros i Hi. cbn [v_tick v_source v_reads]. specialize (HF (S i) ltac:(cbn; lia)). cbn in HF. rewrite <- HF. f_equal. lia.
      * cbn [v_tick v_source v_reads]. cbn in HN. rewrite <- HN. f_equal. lia.
Qed.
Lemma loop_not_writer cc body fs : forall gens v, v_writer v = false -> codec_fourcc v (output_path W v) = Ret cc -> slen cc = 4 ->
  v_open v = true -> gens 0 = GRunning -> has_frames (fun i => w_reads W (v_source v) (v_reads v + i)) fs ->
  v_calls (fst (use W (for_loop body fs) gens v)) =
    v_calls v ++ opens_with W v cc (flat_map body fs) ++ tail_calls (match flat_map body fs with [] => false | _ => true end).
Proof.
  induction fs as [|f fs IH]; intros gens v Wr C L O G [HF HN].
  - cbn in *. rewrite G. unfold gen_next. cbn [v_tick v_open v_source]. rewrite O. rewrite Nat.add_0_r in HN. rewrite HN. cbn. rewrite Wr. cbn.
    rewrite <- !app_assoc. reflexivity.
  - assert (R := HF 0 ltac:(cbn; lia)). rewrite Nat.add_0_r in R. cbn in R.
    assert (HF' : has_frames (fun i => w_reads W (v_source (v_tick v)) (v_reads (v_tick v) + i)) fs).
    { split.
      - intros i Hi. cbn [v_tick v_source v_reads]. specialize (HF (S i) ltac:(cbn; lia)). cbn in HF. rewrite <- HF. f_equal. lia.
      - cbn [v_tick v_source v_reads]. cbn in HN. rewrite <- HN. f_equal. lia. }
    unfold for_loop. cbn [flat_map]. rewrite <- app_assoc. cbn [app use]. rewrite G. unfold gen_next. cbn [v_tick v_open v_source]. rewrite O, R, elapsed_nz.
    fold (v_tick v). destruct (body f) as [|g gs] eqn:B.
    + cbn [map app]. assert (H := IH (upd gens 0 GRunning) (v_tick v) Wr C L O eq_refl HF'). unfold for_loop in H.
      destruct (use W _ _ (v_tick v)) as [u' fs']. cbn [fst] in *. rewrite H. reflexivity.
    + cbn [map app use]. unfold write.
      change (v_writer (v_tick v)) with (v_writer v). rewrite Wr. change (codec_fourcc (v_tick v) (output_path W (v_tick v))) with (codec_fourcc v (output_path W v)).
      rewrite C, L. cbn [Nat.eqb fst].
      match goal with |- context [use W _ _ (v_call (WriteFrame g) ?u)] => set (v1 := v_call (WriteFrame g) u) end.
      destruct (writes_app gs (for_loop body fs) (upd gens 0 GRunning) v1 eq_refl) as (v' & E1 & E2 & E3 & E4 & E5 & E6).
      unfold for_loop in E1 |- *. rewrite E1. assert (H := loop_writer body fs (upd gens 0 GRunning) v' E3). unfold for_loop in H.
      destruct (use W _ _ v') as [u' fs']. cbn [fst] in *. rewrite H; [|rewrite E4; exact O|reflexivity|rewrite E5, E6; exact HF'].
      rewrite E2. unfold v1. cbn [v_call v_set_writer v_calls v_tick]. cbn [opens_with map]. rewrite map_app, <- !app_assoc. cbn [app]. rewrite <- !app_assoc. reflexivity.
Qed.
End P.

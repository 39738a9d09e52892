(** Proofs about frames in a folder, the table of objects, warnings and the size of the terminal. *)
From Coq Require Import ZArith QArith Bool Arith Ascii String List Lia.
From Verif Require Import Model.Num Model.Base Model.Images Model.Strings Model.Metrics Model.Video Spec.MetricsSpec Spec.VideoSpec.
From Verif Require Import Proofs.MetricsProofs Proofs.VideoProofs Proofs.VideoPaths Proofs.DistanceProofs.
Import ListNotations.
Local Open Scope nat_scope.

Lemma declared lines k v : str_mem "=" k = false -> declares lines k v -> exists i, search lines k = Ret i /\ reads_as v i.
Proof. intros M (before & after & -> & H). exact (search_assignment before k v after M H). Qed.
Lemma declared_int lines k n : str_mem "=" k = false -> (0 <= n)%Z -> declares lines k (str_of_Z n) -> search lines k = Ret (InfoInt n).
Proof.
  intros M L D. destruct (declared lines k _ M D) as (i & -> & [R _]). destruct (str_of_Z_nonneg n L) as [E1 E2]. rewrite R, E2 by exact E1. reflexivity.
Qed.
Lemma declared_str lines k v : str_mem "=" k = false -> isdigit v = false -> declares lines k v -> search lines k = Ret (InfoStr v).
Proof. intros M L D. destruct (declared lines k _ M D) as (i & -> & [_ R]). rewrite R by exact L. reflexivity. Qed.

(* ---- names ---- *)
Lemma digits_zero n : forall s acc, fold_left (fun acc a => (acc * 10 + (Z.of_nat (nat_of_ascii a) - 48))%Z) (repeat "0"%char n ++ chars s) (0 * acc)%Z =
  fold_left (fun acc a => (acc * 10 + (Z.of_nat (nat_of_ascii a) - 48))%Z) (chars s) 0%Z.
Proof. induction n as [|n IH]; intros s acc; [reflexivity|]. cbn [repeat app fold_left]. exact (IH s 0%Z). Qed.
Lemma zfill_digits k : (0 <= k)%Z -> frame_digits k (zfill 6 (str_of_Z k)).
Proof.
  intros L. destruct (str_of_Z_nonneg k L) as [E1 E2]. unfold isdigit in E1. apply andb_true_iff in E1. destruct E1 as [NE FD].
  unfold frame_digits. assert (CH : chars (zfill 6 (str_of_Z k)) = repeat "0"%char (6 - slen (str_of_Z k)) ++ chars (str_of_Z k)) by (unfold zfill; apply chars_unchars).
  split; [|split].
  - unfold isdigit. apply andb_true_iff. split.
    + destruct (String.eqb_spec (zfill 6 (str_of_Z k)) EmptyString) as [E|]; [|reflexivity]. rewrite E in CH. change (chars "") with (@nil ascii) in CH.
      destruct (6 - slen (str_of_Z k)) eqn:Q; [|discriminate CH]. assert (slen (str_of_Z k) = 0) by (rewrite <- chars_len; cbn [repeat app] in CH; rewrite <- CH; reflexivity). lia.
    + rewrite CH, forallb_app, FD, andb_true_r. apply forallb_forall. intros x Hx. apply repeat_spec in Hx. subst x. reflexivity.
  - unfold int_of_digits. rewrite CH. etransitivity; [exact (digits_zero _ (str_of_Z k) 0%Z)|]. exact E2.
  - rewrite <- chars_len, CH, app_length, repeat_length, chars_len. lia.
Qed.
Lemma digits_not_slash k s : frame_digits k s -> ~ starts_with "/" s.
Proof. intros (H & _) [r ->]. unfold isdigit in H. cbn in H. discriminate. Qed.
Lemma frame_digits_inj k k' s : frame_digits k s -> frame_digits k' s -> k = k'.
Proof. intros (_ & <- & _) (_ & <- & _). reflexivity. Qed.

Section F.
Context {Frame : Type}.
Implicit Types s : fvideo Frame.
Definition frame_path (input dir ext : string) (k : Z) : string := join (join input dir) (zfill 6 (str_of_Z k) ++ ext)%string.
Definition at_frame s (k : Z) : fvideo Frame := MkFVideo (fv_input s) (fv_length s) k (fv_ext s) (fv_dir s) (fv_video s) (fv_calls s).
Definition more_calls s (k : Z) cs : fvideo Frame := MkFVideo (fv_input s) (fv_length s) k (fv_ext s) (fv_dir s) (fv_video s) (fv_calls s ++ cs).

Lemma list_from n input dir ext calls mk : forall m k, k + m = n ->
  let s j := MkFVideo (Frame := Frame) input (InfoInt (Z.of_nat n)) (Z.of_nat (S j)) (InfoStr ext) (InfoStr dir) mk calls in
  fv_list (S m) (s k) = (s n, map (fun j => frame_path input dir ext (Z.of_nat (S j))) (seq k m)).
Proof.
  induction m as [|m IH]; intros k E s.
  - cbn -[Z.of_nat]. unfold fv_next. cbn [fv_length fv_frame s]. destruct (Z.leb_spec (Z.of_nat (S k)) (Z.of_nat n)); [lia|]. replace n with k by lia. reflexivity.
  - change (fv_list (S (S m)) (s k)) with (match fv_next (s k) with (s', Ret (Some p)) => let '(s'', ps) := fv_list (S m) s' in (s'', p :: ps) | (s', _) => (s', []) end).
    unfold fv_next. cbn [fv_length fv_frame fv_ext fv_dir s fv_input fv_video fv_calls]. destruct (Z.leb_spec (Z.of_nat (S k)) (Z.of_nat n)); [|lia].
    replace (Z.of_nat (S k) + 1)%Z with (Z.of_nat (S (S k))) by lia. specialize (IH (S k) ltac:(lia)). cbn zeta in IH. unfold s. rewrite IH. reflexivity.
Qed.

Lemma loop_from n input dir ext (body : string -> Frame) : forall m k calls, k + m = n ->
  let path j := frame_path input dir ext (Z.of_nat (S j)) in
  let s j calls := MkFVideo (Frame := Frame) input (InfoInt (Z.of_nat n)) (Z.of_nat (S j)) (InfoStr ext) (InfoStr dir) true calls in
  fv_loop body (S m) (s k calls) =
    (s n (calls ++ map (fun j => WriteFrame (body (path j))) (seq k m) ++ (if Nat.eqb m 0 then [] else [CloseWindows; ReleaseWriter])), map path (seq k m)).
Proof.
  induction m as [|m IH]; intros k calls E path s.
  - cbn -[Z.of_nat]. unfold fv_next. cbn [fv_length fv_frame s]. destruct (Z.leb_spec (Z.of_nat (S k)) (Z.of_nat n)); [lia|]. replace n with k by lia.
    rewrite app_nil_r. reflexivity.
  - change (fv_loop body (S (S m)) (s k calls)) with
      (match fv_next (s k calls) with
       | (s', Ret (Some p)) => match fv_update (body p) s' with
           | (s1, Ret _) => let '(s'', ps) := fv_loop body (S m) s1 in (s'', p :: ps) | (s1, Raise _) => (s1, [p]) end
       | (s', _) => (s', []) end).
    unfold fv_next. cbn [fv_length fv_frame fv_ext fv_dir s fv_input fv_video fv_calls]. destruct (Z.leb_spec (Z.of_nat (S k)) (Z.of_nat n)); [|lia].
    unfold fv_update. cbn [fv_video fv_length fv_frame fv_input fv_ext fv_dir fv_calls].
    replace (Z.of_nat (S k) + 1)%Z with (Z.of_nat (S (S k))) by lia. fold (frame_path input dir ext (Z.of_nat (S k))). fold (path k).
    set (calls' := calls ++ _). specialize (IH (S k) calls' ltac:(lia)). cbn zeta in IH. rewrite IH. unfold path at 3. cbn [seq map].
    f_equal. unfold s. f_equal. unfold calls'. rewrite <- !app_assoc. cbn [app Nat.eqb]. f_equal. f_equal.
    destruct m as [|m].
    + cbn [seq map Nat.eqb app]. destruct (Z.ltb_spec (Z.of_nat n) (Z.of_nat (S (S k)))); [reflexivity|lia].
    + cbn [Nat.eqb]. destruct (Z.ltb_spec (Z.of_nat n) (Z.of_nat (S (S k)))); [lia|]. reflexivity.
Qed.

Lemma fvideo_silent input save lines n ext dir : declares lines "seqLength" (str_of_Z (Z.of_nat n)) -> declares lines "imExt" ext -> declares lines "imDir" dir ->
  isdigit ext = false -> isdigit dir = false ->
  fvideo_new (Frame := Frame) input save lines false = Ret (MkFVideo input (InfoInt (Z.of_nat n)) 1 (InfoStr ext) (InfoStr dir) false []).
Proof.
  intros D1 D2 D3 X1 X2. unfold fvideo_new. rewrite (declared_int lines "seqLength" (Z.of_nat n) eq_refl ltac:(lia) D1).
  rewrite (declared_str lines "imExt" ext eq_refl X1 D2), (declared_str lines "imDir" dir eq_refl X2 D3). reflexivity.
Qed.
Lemma fvideo_made input save lines n ext dir fps w h : declares lines "seqLength" (str_of_Z (Z.of_nat n)) -> declares lines "imExt" ext -> declares lines "imDir" dir ->
  isdigit ext = false -> isdigit dir = false ->
  declares lines "frameRate" (str_of_Z fps) -> declares lines "imWidth" (str_of_Z w) -> declares lines "imHeight" (str_of_Z h) -> (0 <= fps)%Z -> (0 <= w)%Z -> (0 <= h)%Z ->
  fvideo_new (Frame := Frame) input save lines true = Ret (MkFVideo input (InfoInt (Z.of_nat n)) 1 (InfoStr ext) (InfoStr dir) true
    [OpenWriter (join (join save "videos") (basename input ++ ".mp4")) "mp4v" (inject_Z fps) (w, h)]).
Proof.
  intros D1 D2 D3 X1 X2 D4 D5 D6 L1 L2 L3. unfold fvideo_new.
  rewrite (declared_int lines "frameRate" fps eq_refl L1 D4), (declared_int lines "imWidth" w eq_refl L2 D5), (declared_int lines "imHeight" h eq_refl L3 D6).
  rewrite (declared_int lines "seqLength" (Z.of_nat n) eq_refl ltac:(lia) D1).
  rewrite (declared_str lines "imExt" ext eq_refl X1 D2), (declared_str lines "imDir" dir eq_refl X2 D3). reflexivity.
Qed.
Lemma fvideo_rate input save lines v : declares lines "frameRate" v -> isdigit v = false ->
  (exists i, search lines "imWidth" = Ret i) -> (exists i, search lines "imHeight" = Ret i) ->
  fvideo_new (Frame := Frame) input save lines true = Raise ETypeError.
Proof.
  intros D X [i1 E1] [i2 E2]. unfold fvideo_new. rewrite (declared_str lines "frameRate" v eq_refl X D), E1, E2. reflexivity.
Qed.

(** Paths of the frames: folder/digits.ext, all different. *)
Lemma frame_path_form input dir ext k : (0 <= k)%Z -> exists d, folder (join input dir) d /\
  exists digits, frame_digits k digits /\ frame_path input dir ext k = (d ++ digits ++ ext)%string.
Proof.
  intros L. assert (FD := zfill_digits k L). unfold frame_path.
  destruct (join_relative (join input dir) (zfill 6 (str_of_Z k) ++ ext)%string) as (d & F & E).
  - intros [r E]. destruct FD as (H & _). unfold isdigit in H. destruct (zfill 6 (str_of_Z k)) as [|c s]; [discriminate|]. cbn in *. injection E as -> _. discriminate.
  - exists d. split; [exact F|]. exists (zfill 6 (str_of_Z k)). split; [exact FD|exact E].
Qed.
Lemma frame_path_inj input dir ext k k' : (0 <= k)%Z -> (0 <= k')%Z -> frame_path input dir ext k = frame_path input dir ext k' -> k = k'.
Proof.
  intros L L' E. destruct (frame_path_form input dir ext k L) as (d & F & s & FD & E1). destruct (frame_path_form input dir ext k' L') as (d' & F' & s' & FD' & E2).
  rewrite (folder_unique _ _ _ F' F) in E2. rewrite E1, E2 in E. apply sapp_cancel in E. apply sapp_cancel_r in E. subst s'. exact (frame_digits_inj k k' s FD FD').
Qed.
Lemma frame_paths_nodup input dir ext n : NoDup (map (fun j => frame_path input dir ext (Z.of_nat (S j))) (seq 0 n)).
Proof.
  apply FinFun.Injective_map_NoDup; [|apply seq_NoDup]. intros j j' E. apply frame_path_inj in E; lia.
Qed.
End F.

(* ---- table ---- *)
Lemma table_raises {D} (fmt4 : D -> string) objs : table_rows fmt4 objs = Raise ETypeError <-> exists o, In o objs /\ to_distance o = None.
Proof.
  induction objs as [|o objs IH]; cbn.
  - split; [discriminate|intros (o & [] & _)].
  - destruct (to_distance o) as [d|] eqn:E.
    + destruct (table_rows fmt4 objs) as [rows|e] eqn:T.
      * split; [discriminate|]. intros (o' & [<-|H] & E'); [congruence|]. assert (Ret rows = Raise ETypeError) by (apply IH; eauto). discriminate.
      * split.
        -- intros _. assert (e = ETypeError) as ->. { clear - T. revert e T. induction objs as [|o objs IH]; cbn; [discriminate|]. intros e. destruct (to_distance o); [|congruence]. destruct (table_rows fmt4 objs); [discriminate|]. intros [= <-]. apply IH; reflexivity. }
           destruct (proj1 IH eq_refl) as (o' & H & E'). eauto.
        -- intros (o' & [<-|H] & E'); [congruence|]. apply IH. eauto.
    + split; [intros _; exists o; auto|reflexivity].
Qed.
Lemma table_ok {D} (fmt4 : D -> string) objs : (forall o, In o objs -> to_distance o <> None) ->
  exists rows, table_rows fmt4 objs = Ret rows /\ Forall2 (fun o r => exists d, to_distance o = Some d /\
     r = [str_id (to_id o); str_of_Z (to_age o); str_of_Z (to_hit o); fmt4 d; str_of_Z (Z.of_nat (to_init o))]) objs rows.
Proof.
  induction objs as [|o objs IH]; intros H; [exists []; auto|]. cbn. destruct (to_distance o) as [d|] eqn:E; [|elim (H o (or_introl eq_refl) E)].
  destruct IH as (rows & -> & F); [intros o' Ho'; apply H; right; exact Ho'|]. eexists; split; [reflexivity|]. constructor; [eauto|exact F].
Qed.

(* ---- warn_once ---- *)
Lemma warn_inv ms : forall w, (forall x, In x (wn_cache w) <-> In x (wn_log w)) -> forall x,
  In x (wn_cache (fold_left (fun w m => warn_once m w) ms w)) <-> In x (wn_log (fold_left (fun w m => warn_once m w) ms w)).
Proof.
  induction ms as [|m ms IH]; intros w H x; [apply H|]. cbn. apply IH. intros y. unfold warn_once.
  destruct (existsb (String.eqb m) (wn_cache w)); [apply H|]. cbn. rewrite in_app_iff, H. cbn. tauto.
Qed.
Lemma warned ms : let w := fold_left (fun w m => warn_once m w) ms (MkWarn [] []) in first_occurrences ms (wn_log w) /\ forall x, In x (wn_cache w) <-> In x ms.
Proof.
  induction ms as [|m ms IH] using rev_ind; [split; [constructor|tauto]|]. cbn zeta in *. rewrite fold_left_app. cbn [fold_left].
  set (w := fold_left (fun w m => warn_once m w) ms (MkWarn [] [])) in *. destruct IH as [F C]. unfold warn_once.
  destruct (existsb (String.eqb m) (wn_cache w)) eqn:E.
  - apply existsb_exists in E. destruct E as (y & Hy & Ey). apply String.eqb_eq in Ey. subst y. split; [apply fo_old; [exact F|apply C; exact Hy]|].
    intros x. rewrite C, in_app_iff. cbn. split; [tauto|]. intros [H|[<-|[]]]; [exact H|apply C; exact Hy].
  - assert (~ In m ms).
    { intros H. apply C in H. assert (existsb (String.eqb m) (wn_cache w) = true) by (apply existsb_exists; exists m; split; [exact H|apply String.eqb_refl]). congruence. }
    cbn. split; [apply fo_new; assumption|]. intros x. rewrite C, in_app_iff. cbn. tauto.
Qed.
Lemma first_occurrences_spec ms l : first_occurrences ms l -> NoDup l /\ (forall x, In x l <-> In x ms).
Proof.
  induction 1 as [|ms l x F [ND I] N|ms l x F [ND I] N].
  - split; [constructor|tauto].
  - split.
    + apply NoDup_Add with (a := x) (l := l); [|split; [exact ND|rewrite I; exact N]]. replace (l ++ [x]) with (l ++ x :: []) by reflexivity.
      rewrite <- (app_nil_r l) at 1. apply Add_app.
    + intros y. rewrite !in_app_iff, I. tauto.
  - split; [exact ND|]. intros y. rewrite in_app_iff, I. cbn. split; [tauto|]. intros [H|[<-|[]]]; assumption.
Qed.

(* ---- terminal ---- *)
Lemma terminal_first tty default fd sz : (0 <= fd <= 2)%Z -> tty fd = Some sz -> (forall k, (0 <= k < fd)%Z -> tty k = None) -> get_terminal_size tty default = sz.
Proof.
  intros R E H. unfold get_terminal_size. cbn. assert (C : fd = 0%Z \/ fd = 1%Z \/ fd = 2%Z) by lia. destruct C as [E1 | [E1 | E1]]; subst fd.
  - rewrite E. reflexivity.
  - rewrite (H 0%Z) by lia. rewrite E. reflexivity.
  - rewrite (H 0%Z), (H 1%Z) by lia. rewrite E. reflexivity.
Qed.
Lemma terminal_default tty default : (forall k, (0 <= k <= 2)%Z -> tty k = None) -> get_terminal_size tty default = default.
Proof. intros H. unfold get_terminal_size. cbn. rewrite !H by lia. reflexivity. Qed.

(** Proofs about output paths, codecs, the text of the progress bar and frames in a folder. *)
From Coq Require Import ZArith QArith Bool Arith Ascii String List Lia.
From Verif Require Import Model.Num Model.Base Model.Images Model.Strings Model.Metrics Model.Video Spec.MetricsSpec Spec.VideoSpec.
From Verif Require Import Proofs.MetricsProofs Proofs.VideoProofs.
Import ListNotations.
Local Open Scope nat_scope.

Lemma sapp_assoc (a b c : string) : ((a ++ b) ++ c = a ++ b ++ c)%string.
Proof. induction a as [|x a IH]; cbn; [reflexivity|]. f_equal. exact IH. Qed.
Lemma sapp_nil (a : string) : (a ++ "" = a)%string.
Proof. induction a as [|x a IH]; cbn; [reflexivity|]. f_equal. exact IH. Qed.
Lemma slen_app (a b : string) : slen (a ++ b) = slen a + slen b.
Proof. induction a as [|x a IH]; cbn; [reflexivity|]. f_equal. exact IH. Qed.
Lemma str_mem_app c (a b : string) : str_mem c (a ++ b) = str_mem c a || str_mem c b.
Proof. induction a as [|x a IH]; cbn; [reflexivity|]. rewrite IH, orb_assoc. reflexivity. Qed.
Lemma sapp_cancel (a b c : string) : (a ++ b = a ++ c)%string -> b = c.
Proof. induction a as [|x a IH]; cbn; [auto|]. injection 1. exact IH. Qed.
Lemma sapp_cancel_r (a b c : string) : (a ++ c = b ++ c)%string -> a = b.
Proof. intros H. apply chars_inj. apply (f_equal chars) in H. rewrite !chars_app in H. exact (app_inv_tail _ _ _ H). Qed.

Lemma str_last_snoc r c : str_last (r ++ String c EmptyString) = Some c.
Proof. unfold str_last. rewrite chars_app, map_app. apply last_last. Qed.
Lemma str_last_cases s : s = EmptyString \/ exists r c, s = (r ++ String c EmptyString)%string.
Proof.
  induction s as [|a s IH]; [left; reflexivity|right]. destruct IH as [->|(r & c & ->)].
  - exists EmptyString, a. reflexivity.
  - exists (String a r), c. reflexivity.
Qed.
Lemma join_folder a b : starts_with "/" b -> join a b = b.
Proof. intros [r ->]. reflexivity. Qed.
Lemma ends_slash r c : ends_with "/" (r ++ String c EmptyString) <-> c = "/"%char.
Proof.
  split.
  - intros [r' E]. apply (f_equal chars) in E. rewrite !chars_app in E. cbn in E. apply app_inj_tail in E. tauto.
  - intros ->. exists r. reflexivity.
Qed.
Lemma join_relative a b : ~ starts_with "/" b -> exists s, folder a s /\ join a b = (s ++ b)%string.
Proof.
  intros N. assert (E : join a b = match str_last a with None => b | Some c => if Ascii.eqb c "/" then (a ++ b)%string else (a ++ "/" ++ b)%string end).
  { unfold join. destruct b as [|x b]; [reflexivity|].
    assert (x <> "/"%char) by (intros ->; apply N; exists b; reflexivity).
    destruct x as [[] [] [] [] [] [] [] []]; try reflexivity. congruence. }
  rewrite E. destruct (str_last_cases a) as [->|(r & c & ->)].
  - exists EmptyString. split; [left; auto|reflexivity].
  - rewrite str_last_snoc. destruct (Ascii.eqb_spec c "/") as [->|NE].
    + eexists. split; [right; left; split; [exists r; reflexivity|reflexivity]|reflexivity].
    + exists ((r ++ String c EmptyString) ++ "/")%string. split; [|rewrite !sapp_assoc; reflexivity].
      right; right. split; [destruct r; discriminate|]. split; [|reflexivity]. rewrite ends_slash. exact NE.
Qed.
Lemma folder_unique a s s' : folder a s -> folder a s' -> s = s'.
Proof.
  intros [[A1 ->]|[[A1 ->]|(A1 & A2 & ->)]] [[B1 ->]|[[B1 ->]|(B1 & B2 & ->)]]; try reflexivity; try contradiction; try congruence.
Qed.
Lemma folder_dir a s : folder a s -> s = EmptyString \/ ends_with "/" s.
Proof. intros [[_ ->]|[[H ->]|(_ & _ & ->)]]; [left; reflexivity|right; exact H|right; exists a; reflexivity]. Qed.

Lemma basename_dir d n : (d = EmptyString \/ ends_with "/" d) -> str_mem "/" n = false -> last (split_on "/" (d ++ n)) EmptyString = n.
Proof.
  intros [->|[r ->]] H.
  - cbn. rewrite split_none by exact H. reflexivity.
  - rewrite sapp_assoc. cbn. apply split_dir. exact H.
Qed.
Lemma splits_stem p dir stem rest : splits_as p dir stem rest ->
  hd EmptyString (split_on "." (last (split_on "/" p) EmptyString)) = stem /\ last (split_on "/" p) EmptyString = (stem ++ rest)%string.
Proof.
  intros (-> & D & S1 & S2 & R1 & R2). rewrite basename_dir; [|exact D|rewrite str_mem_app, S1, R1; reflexivity].
  split; [|reflexivity]. destruct R2 as [->|[r ->]].
  - rewrite sapp_nil, split_none by exact S2. reflexivity.
  - cbn. rewrite split_app by exact S2. reflexivity.
Qed.
Lemma splits_exist p : exists dir stem rest, splits_as p dir stem rest.
Proof.
  induction p as [|a p (dir & stem & rest & -> & D & S1 & S2 & R1 & R2)].
  - exists EmptyString, EmptyString, EmptyString. repeat split; auto.
  - destruct (Ascii.eqb_spec a "/") as [->|NS].
    + exists (String "/" dir), stem, rest. repeat split; auto. right. destruct D as [->|[r ->]]; [exists EmptyString|exists (String "/" r)]; reflexivity.
    + destruct D as [->|[r ->]].
      * destruct (Ascii.eqb_spec a ".") as [->|ND].
        -- exists EmptyString, EmptyString, (String "." (stem ++ rest)). repeat split; auto.
           ++ cbn. rewrite str_mem_app, S1, R1. reflexivity.
           ++ right. eexists; reflexivity.
        -- exists EmptyString, (String a stem), rest. repeat split; auto; cbn; rewrite ?S1, ?S2; destruct (Ascii.eqb_spec a "/"), (Ascii.eqb_spec a "."); try reflexivity; congruence.
      * exists (String a (r ++ "/")), stem, rest. repeat split; auto. right. exists (String a r). reflexivity.
Qed.

Section P.
Context {Frame : Type} (W : world Frame).
Implicit Types v : video Frame.

Lemma not_slash stem x : str_mem "/" stem = false -> ~ starts_with "/" (stem ++ "_out." ++ x).
Proof. intros S [r E]. destruct stem as [|c stem]; [discriminate|]. cbn in *. injection E as -> _. discriminate S. Qed.
Lemma output_file v p dir stem rest : w_isdir W (v_output v) = true -> v_source v = FromFile p -> splits_as p dir stem rest ->
  exists s, folder (v_output v) s /\ output_path W v = (s ++ stem ++ "_out." ++ v_ext v)%string.
Proof.
  intros D E H. unfold output_path. rewrite D, E. destruct (splits_stem p dir stem rest H) as [-> _].
  apply join_relative. apply not_slash. apply H.
Qed.
Lemma output_camera v z : w_isdir W (v_output v) = true -> v_source v = FromCamera z ->
  exists s, folder (v_output v) s /\ output_path W v = (s ++ "camera_{self.camera}_out." ++ v_ext v)%string.
Proof.
  intros D E. unfold output_path. rewrite D, E. apply join_relative. intros [r H]. discriminate.
Qed.
Lemma output_given v : w_isdir W (v_output v) = false -> output_path W v = v_output v.
Proof. unfold output_path. intros ->. reflexivity. Qed.
Lemma output_not_input v p : w_isdir W (v_output v) = true -> v_source v = FromFile p -> str_mem "/" (v_ext v) = false -> output_path W v <> p.
Proof.
  intros D E X H. destruct (splits_exist p) as (dir & stem & rest & HS).
  destruct (output_file v p dir stem rest D E HS) as (s & FS & EO). rewrite EO in H.
  destruct (splits_stem p dir stem rest HS) as [_ B].
  assert (B' : last (split_on "/" p) EmptyString = (stem ++ "_out." ++ v_ext v)%string).
  { rewrite <- H. apply basename_dir; [exact (folder_dir _ _ FS)|]. rewrite !str_mem_app. rewrite X. destruct HS as (_ & _ & -> & _). reflexivity. }
  rewrite B in B'. apply sapp_cancel in B'. destruct HS as (_ & _ & _ & _ & _ & [->|[r ->]]); discriminate.
Qed.
Lemma output_same v v' p p' dir dir' stem stem' rest rest' : w_isdir W (v_output v) = true -> v_output v' = v_output v -> v_ext v' = v_ext v ->
  v_source v = FromFile p -> v_source v' = FromFile p' -> splits_as p dir stem rest -> splits_as p' dir' stem' rest' ->
  (output_path W v = output_path W v' <-> stem = stem').
Proof.
  intros D EO EX E E' H H'. destruct (output_file v p dir stem rest D E H) as (s & FS & ->).
  destruct (output_file v' p' dir' stem' rest' ltac:(congruence) E' H') as (s' & FS' & ->). rewrite EO in FS'.
  rewrite (folder_unique _ _ _ FS' FS), EX. split; [|intros ->; reflexivity]. intros Q. apply sapp_cancel in Q. apply sapp_cancel_r in Q. exact Q.
Qed.

(* ---- codecs ---- *)
Lemma str_from_3 name : exists r, name = (r ++ str_from (-3) name)%string /\ slen (str_from (-3) name) = Nat.min 3 (slen name).
Proof.
  unfold str_from, slice_from, slice. set (l := chars name). set (n := length l).
  assert (E : clamp_index n (-3) = n - 3) by (unfold clamp_index; cbn [Z.ltb Z.compare]; lia).
  assert (E' : clamp_index n (Z.of_nat n) = n) by (unfold clamp_index; destruct (Z.ltb_spec (Z.of_nat n) 0); lia).
  rewrite E, E'. rewrite (firstn_all2 (n := n - (n - 3))) by (rewrite skipn_length; unfold n; lia).
  exists (unchars (firstn (n - 3) l)). split.
  - apply chars_inj. rewrite chars_app, !chars_unchars, firstn_skipn. reflexivity.
  - rewrite <- chars_len, chars_unchars, skipn_length. rewrite <- (chars_len name). fold l. fold n. lia.
Qed.
Lemma lower_len s : slen (str_lower s) = slen s.
Proof. unfold str_lower. rewrite <- chars_len, chars_unchars, map_length. apply chars_len. Qed.
Lemma last_three name e r : name = (r ++ e)%string -> slen e = 3 -> str_from (-3) name = e.
Proof.
  intros E L. destruct (str_from_3 name) as (r' & E' & L').
  assert (slen (str_from (-3) name) = 3) by (rewrite L', E, slen_app; lia).
  assert (Q : (r ++ e = r' ++ str_from (-3) name)%string) by congruence.
  apply (f_equal chars) in Q. rewrite !chars_app in Q. rewrite <- (chars_len e) in L. rewrite <- (chars_len (str_from (-3) name)) in H.
  assert (length (chars r) = length (chars r')) by (apply (f_equal (@length _)) in Q; rewrite !app_length in Q; lia).
  apply chars_inj. apply (f_equal (skipn (length (chars r)))) in Q. rewrite skipn_app, skipn_all, Nat.sub_diag in Q. rewrite H0 in Q.
  rewrite skipn_app, skipn_all, Nat.sub_diag in Q. cbn in Q. auto.
Qed.
Lemma codec_iff v name cc : codec_fourcc v name = Ret cc <-> codec_for v name cc.
Proof.
  unfold codec_fourcc, codec_for. destruct (v_fourcc v) as [c|].
  - split; [injection 1 as ->; left; reflexivity|]. intros [H|[H _]]; congruence.
  - split.
    + intros H. right. split; [reflexivity|]. exists (str_from (-3) name). destruct (str_from_3 name) as (r & E & _).
      destruct (String.eqb_spec "avi" (str_lower (str_from (-3) name))) as [A|A].
      * injection H as <-. split; [rewrite <- lower_len, <- A; reflexivity|]. split; [exists r; exact E|left; auto].
      * destruct (String.eqb_spec "mp4" (str_lower (str_from (-3) name))) as [B|B]; [|discriminate]. injection H as <-.
        split; [rewrite <- lower_len, <- B; reflexivity|]. split; [exists r; exact E|right; auto].
    + intros [H|(_ & e & L & [r E] & H)]; [discriminate|]. rewrite (last_three name e r E L). destruct H as [[-> ->]|[-> ->]]; reflexivity.
Qed.
Lemma codec_none v name : (forall cc, ~ codec_for v name cc) -> codec_fourcc v name = Raise ERuntimeError.
Proof.
  intros H. destruct (codec_fourcc v name) as [cc|e] eqn:E.
  - apply codec_iff in E. elim (H cc E).
  - unfold codec_fourcc in E. destruct (v_fourcc v); [discriminate|].
    destruct (String.eqb "avi" (str_lower (str_from (-3) name))); [discriminate|].
    destruct (String.eqb "mp4" (str_lower (str_from (-3) name))); [discriminate|]. congruence.
Qed.
End P.

(* ---- the text of the progress bar ---- *)
Lemma str_to_nat n s : n <= slen s -> exists p, str_to (Z.of_nat n) s = p /\ starts_with p s /\ slen p = n.
Proof.
  intros L. eexists; split; [reflexivity|]. unfold str_to, slice_to, slice.
  assert (E : clamp_index (length (chars s)) (Z.of_nat n) = n).
  { unfold clamp_index. destruct (Z.ltb_spec (Z.of_nat n) 0); [lia|]. rewrite chars_len, Nat2Z.id. lia. }
  assert (E0 : clamp_index (length (chars s)) 0 = 0) by reflexivity. rewrite E, E0. cbn [skipn]. rewrite Nat.sub_0_r. split.
  - exists (unchars (skipn n (chars s))). apply chars_inj. rewrite chars_app, !chars_unchars, firstn_skipn. reflexivity.
  - rewrite <- chars_len, chars_unchars, firstn_length, chars_len. lia.
Qed.
Lemma str_from_neg n s : 0 < n <= slen s -> exists q, str_from (- Z.of_nat n) s = q /\ ends_with q s /\ slen q = n.
Proof.
  intros L. eexists; split; [reflexivity|]. unfold str_from, slice_from, slice.
  assert (E : clamp_index (length (chars s)) (- Z.of_nat n) = slen s - n).
  { unfold clamp_index. destruct (Z.ltb_spec (- Z.of_nat n) 0); [|lia]. rewrite chars_len. lia. }
  assert (E' : clamp_index (length (chars s)) (Z.of_nat (length (chars s))) = slen s).
  { unfold clamp_index. rewrite chars_len. destruct (Z.ltb_spec (Z.of_nat (slen s)) 0); lia. }
  rewrite E, E'. rewrite firstn_all2 by (rewrite skipn_length, chars_len; lia). split.
  - exists (unchars (firstn (slen s - n) (chars s))). apply chars_inj. rewrite chars_app, !chars_unchars, firstn_skipn. reflexivity.
  - rewrite <- chars_len, chars_unchars, skipn_length, chars_len. lia.
Qed.
Lemma abbreviate_short columns s : (Z.of_nat (slen s) < columns - 25)%Z -> abbreviate columns s = s.
Proof. intros H. unfold abbreviate. destruct (Z.ltb_spec (Z.of_nat (slen s)) (columns - 25)); [reflexivity|lia]. Qed.
Lemma abbreviate_long columns s : (32 <= columns)%Z -> (columns - 25 <= Z.of_nat (slen s))%Z ->
  exists n m, shortened s n m (abbreviate columns s) /\ (Z.of_nat (n + 5 + m) = columns - 26)%Z /\ n <= m <= n + 1.
Proof.
  intros C L. unfold abbreviate. destruct (Z.ltb_spec (Z.of_nat (slen s)) (columns - 25)); [lia|]. set (sp := (columns - 25)%Z) in *.
  assert (A : (sp / 2 - 3 = Z.of_nat (Z.to_nat (sp / 2 - 3)))%Z) by (rewrite Z2Nat.id; [reflexivity|]; assert (3 <= sp / 2)%Z by (apply Z.div_le_lower_bound; lia); lia).
  assert (B : ((- sp) / 2 + 3 = - Z.of_nat (Z.to_nat (- ((- sp) / 2) - 3)))%Z).
  { rewrite Z2Nat.id; [lia|]. assert ((- sp) / 2 < -3)%Z by (apply Z.div_lt_upper_bound; lia). lia. }
  assert (D1 := Z.div_mod sp 2 ltac:(lia)). assert (D2 := Z.div_mod (- sp) 2 ltac:(lia)). assert (M1 := Z.mod_pos_bound sp 2 ltac:(lia)). assert (M2 := Z.mod_pos_bound (- sp) 2 ltac:(lia)).
  set (n := Z.to_nat (sp / 2 - 3)) in *. set (m := Z.to_nat (- ((- sp) / 2) - 3)) in *. rewrite A, B.
  destruct (str_to_nat n s) as (p & -> & P1 & P2); [lia|].
  destruct (str_from_neg m s) as (q & -> & Q1 & Q2); [lia|].
  exists n, m. split; [exists p, q; auto 10|]. lia.
Qed.
Lemma abbreviate_fits columns s : (32 <= columns)%Z -> (Z.of_nat (slen (abbreviate columns s)) < columns - 25)%Z.
Proof.
  intros C. destruct (Z_lt_le_dec (Z.of_nat (slen s)) (columns - 25)) as [H|H].
  - rewrite abbreviate_short; assumption.
  - destruct (abbreviate_long columns s C H) as (n & m & (p & q & _ & _ & <- & <- & ->) & E & _). rewrite !slen_app. cbn [slen String.length]. lia.
Qed.
Lemma str_from_0 s : str_from 0 s = s.
Proof.
  unfold str_from, slice_from, slice, clamp_index. cbn [Z.ltb Z.compare]. cbn [Z.to_nat Nat.min skipn].
  destruct (Z.ltb_spec (Z.of_nat (length (chars s))) 0); [lia|]. rewrite Nat2Z.id, Nat.min_id, Nat.sub_0_r, firstn_all. apply unchars_chars.
Qed.
Lemma abbreviate_31 s : 6 <= slen s -> abbreviate 31 s = (" ... " ++ s)%string.
Proof.
  intros H. unfold abbreviate. destruct (Z.ltb_spec (Z.of_nat (slen s)) (31 - 25)); [lia|].
  change ((- (31 - 25)) / 2 + 3)%Z with 0%Z. rewrite str_from_0. change ((31 - 25) / 2 - 3)%Z with (Z.of_nat 0).
  destruct (str_to_nat 0 s) as (p & -> & _ & L); [lia|]. destruct p; [reflexivity|discriminate].
Qed.

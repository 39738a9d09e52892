From Coq Require Import ZArith QArith Bool Arith Ascii String List Lia Permutation.
From Verif Require Import Model.Num Model.Base Model.Images Model.Strings Model.Metrics Spec.ImageSpec Spec.PointSpec Spec.MetricsSpec
  Proofs.ImageProofs Proofs.DistanceProofs.
Import ListNotations.
Local Open Scope nat_scope.

(* ---- strings ---- *)
Lemma chars_app a b : chars (a ++ b)%string = chars a ++ chars b.
Proof. induction a as [|c a IH]; [reflexivity|]. cbn. f_equal. exact IH. Qed.
Lemma chars_len s : length (chars s) = slen s.
Proof. induction s as [|c s IH]; [reflexivity|]. cbn. f_equal. exact IH. Qed.
Lemma unchars_chars s : unchars (chars s) = s.
Proof. apply string_of_list_ascii_of_string. Qed.
Lemma chars_unchars l : chars (unchars l) = l.
Proof. apply list_ascii_of_string_of_list_ascii. Qed.
Lemma chars_inj a b : chars a = chars b -> a = b.
Proof. intros H. rewrite <- (unchars_chars a), <- (unchars_chars b), H. reflexivity. Qed.
Lemma str_app_nil s : (s ++ "")%string = s.
Proof. induction s; simpl; congruence. Qed.
Lemma str_app_assoc a b c : ((a ++ b) ++ c)%string = (a ++ b ++ c)%string.
Proof. induction a; simpl; congruence. Qed.
Lemma slice_to_app {A} (a b : list A) : slice_to (Z.of_nat (length a)) (a ++ b) = a.
Proof.
  unfold slice_to, slice, clamp_index. simpl. destruct (Z.ltb_spec (Z.of_nat (length a)) 0); [lia|].
  rewrite Nat2Z.id, app_length, Nat.min_l, Nat.sub_0_r by lia. rewrite firstn_app, Nat.sub_diag, firstn_O, app_nil_r. apply firstn_all.
Qed.
Lemma slice_from_nat {A} n (l : list A) : slice_from (Z.of_nat n) l = skipn n l.
Proof.
  unfold slice_from, slice, clamp_index. destruct (Z.ltb_spec (Z.of_nat n) 0); [lia|]. destruct (Z.ltb_spec (Z.of_nat (length l)) 0); [lia|].
  rewrite !Nat2Z.id, Nat.min_id. destruct (le_lt_dec n (length l)).
  - rewrite Nat.min_l by lia. apply firstn_all2. rewrite skipn_length. lia.
  - rewrite Nat.min_r by lia. rewrite !skipn_all2 by lia. apply firstn_nil.
Qed.
Lemma str_to_prefix name s : str_to (Z.of_nat (slen name)) s = name <-> starts_with name s.
Proof.
  split.
  - unfold str_to. intros E. assert (C : chars name = slice_to (Z.of_nat (slen name)) (chars s)) by (rewrite <- E at 1; apply chars_unchars).
    unfold slice_to, slice in C. unfold clamp_index at 2 in C. simpl in C. rewrite Nat.sub_0_r in C.
    exists (unchars (skipn (clamp_index (length (chars s)) (Z.of_nat (slen name))) (chars s))).
    apply chars_inj. rewrite chars_app, chars_unchars, C. symmetry. apply firstn_skipn.
  - intros [r ->]. unfold str_to. rewrite chars_app, <- chars_len, slice_to_app. apply unchars_chars.
Qed.

(* ---- search ---- *)
Lemma value_reads v : reads_as v (if isdigit v then InfoInt (int_of_digits v) else InfoStr v).
Proof. split; intros ->; reflexivity. Qed.
Lemma search_hit name v lines : search ((name ++ "=" ++ v)%string :: lines) name = Ret (if isdigit v then InfoInt (int_of_digits v) else InfoStr v).
Proof.
  simpl. rewrite (proj2 (String.eqb_eq _ _)).
  - assert (E : str_from (Z.of_nat (slen name) + 1) (name ++ String "=" v) = v).
    { unfold str_from. rewrite chars_app. replace (Z.of_nat (slen name) + 1)%Z with (Z.of_nat (S (length (chars name)))) by (rewrite chars_len; lia).
      rewrite slice_from_nat, skipn_app, skipn_all2 by lia. replace (S _ - _) with 1 by lia. simpl. apply unchars_chars. }
    rewrite E. reflexivity.
  - apply str_to_prefix. eexists. reflexivity.
Qed.
Lemma search_miss name line lines : ~ starts_with name line -> search (line :: lines) name = search lines name.
Proof. intros H. simpl. destruct (String.eqb_spec (str_to (Z.of_nat (slen name)) line) name); [|reflexivity]. apply str_to_prefix in e. contradiction. Qed.
Lemma prefix_of_key name k w : str_mem "="%char name = false -> starts_with name (k ++ "=" ++ w)%string -> starts_with name k.
Proof.
  intros NM [r E]. revert k E. induction name as [|a name IH]; intros k E; [exists k; reflexivity|].
  simpl in NM. apply orb_false_elim in NM. destruct NM as [A NM].
  destruct k as [|b k]; simpl in E; inversion E; subst.
  - simpl in A. discriminate.
  - destruct (IH NM k H1) as [r' ->]. exists r'. reflexivity.
Qed.
Lemma search_assignment before name v after : str_mem "="%char name = false ->
  (forall kv, In kv before -> ~ starts_with name (fst kv)) ->
  exists i, search (map assignment (before ++ (name, v) :: after)) name = Ret i /\ reads_as v i.
Proof.
  intros NM H. exists (if isdigit v then InfoInt (int_of_digits v) else InfoStr v). split; [|apply value_reads].
  induction before as [|[k w] before IH].
  - apply search_hit.
  - cbn [map app]. rewrite search_miss. { apply IH. intros kv I. apply H. right; exact I. }
    intros S. apply (H (k, w) (or_introl eq_refl)). exact (prefix_of_key name k w NM S).
Qed.
Lemma search_fails lines name : search lines name = Raise EValueError <-> forall l, In l lines -> ~ starts_with name l.
Proof.
  induction lines as [|l lines IH]; [split; [intros _ ? []|reflexivity]|]. simpl.
  destruct (String.eqb_spec (str_to (Z.of_nat (slen name)) l) name) as [E|E]; rewrite str_to_prefix in E.
  - split; [discriminate|]. intros H. exfalso. apply (H l (or_introl eq_refl) E).
  - rewrite IH. split; intros H l'; [intros [<-|I]; [exact E|apply H, I]|intros I; apply H; right; exact I].
Qed.


Lemma digits_val s : forall acc, fold_left (fun acc a => (acc * 10 + (Z.of_nat (nat_of_ascii a) - 48))%Z) (chars s) acc = str_val s acc.
Proof. induction s as [|a s IH]; intros acc; simpl; auto. Qed.

(* ---- decimal numbers ---- *)
Definition all_chars (P : ascii -> bool) (s : string) : bool := forallb P (chars s).
Lemma all_cons P a s : all_chars P (String a s) = P a && all_chars P s.
Proof. reflexivity. Qed.
Lemma digit_is_digit d : (0 <= d < 10)%Z -> is_digit (digit_char d) = true.
Proof.
  intros H. unfold is_digit, digit_char. rewrite nat_ascii_embedding by lia. apply andb_true_intro. split; apply Nat.leb_le; lia.
Qed.
Lemma pos_digits_digits f : forall z acc, (0 <= z)%Z -> all_chars is_digit acc = true -> all_chars is_digit (pos_digits f z acc) = true.
Proof.
  induction f as [|f IH]; intros z acc Hz A; cbn [pos_digits]; [exact A|]. destruct (Z.ltb_spec z 10).
  - rewrite all_cons, digit_is_digit by lia. exact A.
  - apply IH; [apply Z.div_pos; lia|]. rewrite all_cons, digit_is_digit, A; [reflexivity|].
    pose proof (Z.mod_pos_bound z 10). lia.
Qed.
Lemma str_of_Z_nonneg z : (0 <= z)%Z -> isdigit (str_of_Z z) = true /\ int_of_digits (str_of_Z z) = z.
Proof.
  intros H. unfold str_of_Z. destruct (Z.ltb_spec z 0); [lia|]. rewrite Z.abs_eq by lia. split.
  - unfold isdigit. rewrite andb_comm. apply andb_true_intro. split.
    + apply pos_digits_digits; [exact H|reflexivity].
    + destruct (pos_digits_head (Z.to_nat (Z.log2 z)) z EmptyString H) as (d & t & -> & _). reflexivity.
  - unfold int_of_digits. rewrite digits_val. apply str_of_Z_abs, H.
Qed.
Lemma mem_digits c s : is_digit c = false -> all_chars is_digit s = true -> str_mem c s = false.
Proof.
  intros C. induction s as [|a s IH]; intros H; [reflexivity|]. rewrite all_cons in H. apply andb_true_iff in H. destruct H as [A H].
  simpl. rewrite IH by exact H. destruct (Ascii.eqb_spec a c); [congruence|reflexivity].
Qed.
Lemma str_of_Z_mem c z : is_digit c = false -> c <> "-"%char -> str_mem c (str_of_Z z) = false.
Proof.
  intros C D. unfold str_of_Z. pose proof (mem_digits c _ C (pos_digits_digits (S (Z.to_nat (Z.log2 (Z.abs z)))) (Z.abs z) EmptyString (Z.abs_nonneg z) eq_refl)) as M.
  destruct (z <? 0)%Z; [|exact M]. cbn [append str_mem]. rewrite M. destruct (Ascii.eqb_spec "-"%char c); [congruence|reflexivity].
Qed.
Lemma search_length n rest : (0 <= n)%Z -> search (("seqLength=" ++ str_of_Z n)%string :: rest) "seqLength" = Ret (InfoInt n).
Proof.
  intros H. destruct (str_of_Z_nonneg n H) as [A B]. change ("seqLength=" ++ str_of_Z n)%string with ("seqLength" ++ "=" ++ str_of_Z n)%string.
  rewrite search_hit, A, B. reflexivity.
Qed.

(* ---- splitting ---- *)
Lemma split_none c s : str_mem c s = false -> split_on c s = [s].
Proof.
  induction s as [|a s IH]; intros H; [reflexivity|]. simpl in H. apply orb_false_elim in H. destruct H as [A H]. simpl. rewrite A, IH by exact H. reflexivity.
Qed.
Lemma split_app c s t : str_mem c s = false -> split_on c (s ++ String c t) = s :: split_on c t.
Proof.
  induction s as [|a s IH]; intros H; simpl.
  - rewrite Ascii.eqb_refl. reflexivity.
  - simpl in H. apply orb_false_elim in H. destruct H as [A H]. rewrite A, IH by exact H. reflexivity.
Qed.
Lemma mem_app c s t : str_mem c (s ++ t) = str_mem c s || str_mem c t.
Proof. induction s; simpl; [reflexivity|]. rewrite IHs, orb_assoc. reflexivity. Qed.

Lemma f2_length {A B} (R : A -> B -> Prop) a b : Forall2 R a b -> length a = length b.
Proof. induction 1; simpl; congruence. Qed.
Lemma skipn_nth {A} (l : list A) : forall k x, nth_error l k = Some x -> skipn k l = x :: skipn (S k) l.
Proof. induction l as [|a l IH]; intros [|k] x E; try discriminate; [injection E as ->; reflexivity|]. exact (IH k x E). Qed.
Section M.
Context {N : Num}.
Context (fmt : N -> string) (parse : string -> option N) (f32 : N -> N).

(* ---- the predictions file ---- *)
Lemma box_of_shows p x : shows_box p x ->
  box_of (N := N) (pr_estimate p) = Ret (b_left x, b_top x, nsub (b_right x) (b_left x), nsub (b_bottom x) (b_top x)).
Proof. intros (_ & r0 & r1 & rest & E). unfold box_of, at2. rewrite E. reflexivity. Qed.
Lemma write_spec frame ps : forall xs s, Forall2 shows_box ps xs -> pt_open s = true ->
  pt_write fmt frame ps s = (MkPT (pt_length s) (pt_frame s) true (pt_text s ++ frame_text fmt frame xs), Ret tt).
Proof.
  induction ps as [|p ps IH]; intros xs s F O; inversion F; subst; simpl.
  - rewrite str_app_nil. destruct s; simpl in *; subst; reflexivity.
  - rewrite (box_of_shows _ _ H1). destruct H1 as [I _]. rewrite I, O. erewrite IH by (eauto). simpl. do 2 f_equal. rewrite str_app_assoc. f_equal.
    unfold row_text. rewrite ?str_app_assoc. cbn [append]. rewrite ?str_app_assoc. reflexivity.
Qed.
Lemma update_spec ps xs s n : Forall2 shows_box ps xs -> pt_open s = true -> pt_length s = InfoInt n ->
  pt_update fmt ps None s = (MkPT (InfoInt n) (pt_frame s + 1) (pt_frame s <? n)%Z (pt_text s ++ frame_text fmt (pt_frame s) xs), Ret tt).
Proof.
  intros F O L. unfold pt_update. rewrite (write_spec _ _ _ _ F O). cbn [pt_length pt_frame pt_open pt_text]. rewrite L.
  destruct (Z.ltb_spec n (pt_frame s + 1)), (Z.ltb_spec (pt_frame s) n); try lia; reflexivity.
Qed.
Lemma text_run n video : forall boxes s, Forall2 (Forall2 shows_box) video boxes -> pt_length s = InfoInt n ->
  pt_open s = (pt_frame s <=? n)%Z -> (pt_frame s + Z.of_nat (length video) <= n + 1)%Z ->
  pt_run fmt video s = (MkPT (InfoInt n) (pt_frame s + Z.of_nat (length video)) (pt_frame s + Z.of_nat (length video) <=? n)%Z
     (pt_text s ++ video_text fmt (pt_frame s) boxes), Ret tt).
Proof.
  induction video as [|ps video IH]; intros boxes s F L O B; inversion F; subst.
  - simpl. rewrite str_app_nil, Z.add_0_r, <- O, <- L. destruct s; reflexivity.
  - cbn [pt_run]. cbn [length] in B. rewrite (update_spec _ _ _ n H1); [|rewrite O; apply Z.leb_le; lia|exact L].
    erewrite IH; [|exact H3|reflexivity| |]; cbn [pt_length pt_frame pt_open pt_text].
    + rewrite str_app_assoc. cbn [video_text length]. do 2 f_equal; [lia|]. f_equal. lia.
    + destruct (Z.ltb_spec (pt_frame s) n), (Z.leb_spec (pt_frame s + 1) n); try lia; reflexivity.
    + lia.
Qed.
Lemma closed_update ps s n : pt_length s = InfoInt n -> (n < pt_frame s)%Z -> pt_open s = false ->
  (ps <> [] -> exists e, pt_update fmt ps None s = (s, Raise e)).
Proof.
  intros L F O NE. destruct ps as [|p ps]; [contradiction|]. unfold pt_update. cbn [pt_write]. rewrite O.
  destruct (pr_id p); [|eexists; reflexivity]. destruct (box_of (pr_estimate p)) as [[[[? ?] ?] ?]|]; eexists; reflexivity.
Qed.

(* ---- loadtxt ---- *)
Definition row_of (k : Z) (x : box N) : list N :=
  [nofQ (inject_Z k); nofQ (inject_Z (Z.of_nat (b_id x))); f32 (b_left x); f32 (b_top x); f32 (nsub (b_right x) (b_left x)); f32 (nsub (b_bottom x) (b_top x));
   nofQ (inject_Z (-1)); nofQ (inject_Z (-1)); nofQ (inject_Z (-1)); nofQ (inject_Z (-1))].
Definition line_of (k : Z) (x : box N) : string :=
  (str_of_Z k ++ "," ++ str_of_Z (Z.of_nat (b_id x)) ++ "," ++ fmt (b_left x) ++ "," ++ fmt (b_top x) ++ ","
     ++ fmt (nsub (b_right x) (b_left x)) ++ "," ++ fmt (nsub (b_bottom x) (b_top x)) ++ ",-1,-1,-1,-1")%string.
Context (OK : text_ok fmt parse f32).
Lemma line_cells k x : split_on "," (line_of k x) =
  [str_of_Z k; str_of_Z (Z.of_nat (b_id x)); fmt (b_left x); fmt (b_top x); fmt (nsub (b_right x) (b_left x)); fmt (nsub (b_bottom x) (b_top x));
   "-1"; "-1"; "-1"; "-1"]%string.
Proof.
  unfold line_of. assert (C : forall z, str_mem "," (str_of_Z z) = false) by (intros; apply str_of_Z_mem; [reflexivity|discriminate]).
  assert (D : forall v, str_mem "," (fmt v) = false) by (intros; apply OK).
  cbn [append]. repeat (rewrite (split_app ","%char) by auto). reflexivity.
Qed.
Lemma parse_line_of k x : parse_line parse (line_of k x) = Some (row_of k x).
Proof.
  unfold parse_line. rewrite line_cells. unfold row_of. cbn [map_option]. rewrite !(tx_back _ _ _ OK), !(tx_int _ _ _ OK).
  change "-1"%string with (str_of_Z (-1)). rewrite (tx_int _ _ _ OK). reflexivity.
Qed.
Lemma line_newline k x : str_mem newline (line_of k x) = false.
Proof.
  unfold line_of. rewrite !mem_app. assert (C : forall z, str_mem newline (str_of_Z z) = false) by (intros; apply str_of_Z_mem; [reflexivity|discriminate]).
  assert (D : forall v, str_mem newline (fmt v) = false) by (intros; apply OK). rewrite !C, !D. reflexivity.
Qed.
Lemma line_nonempty k x : String.eqb (line_of k x) EmptyString = false.
Proof. unfold line_of, str_of_Z. destruct (k <? 0)%Z; [reflexivity|]. destruct (pos_digits_head (Z.to_nat (Z.log2 (Z.abs k))) (Z.abs k) EmptyString (Z.abs_nonneg k)) as (d & t & -> & _). reflexivity. Qed.

Fixpoint numbered (k : Z) (video : list (list (box N))) : list (Z * box N) :=
  match video with [] => [] | xs :: video' => map (pair k) xs ++ numbered (k + 1) video' end.
Lemma frame_lines k xs t : split_on newline (frame_text fmt k xs ++ t) = map (line_of k) xs ++ split_on newline t.
Proof.
  induction xs as [|x xs IH]; [reflexivity|]. cbn [frame_text fold_right map app]. rewrite <- IH.
  match goal with |- split_on _ (?a ++ _) = _ => replace (a ++ t)%string with (line_of k x ++ String newline (frame_text fmt k xs ++ t))%string end.
  - apply split_app, line_newline.
  - unfold line_of. rewrite ?str_app_assoc. cbn [append]. rewrite ?str_app_assoc. reflexivity.
Qed.
Lemma video_lines video : forall k, split_on newline (video_text fmt k video) = map (fun kx => line_of (fst kx) (snd kx)) (numbered k video) ++ [EmptyString].
Proof.
  induction video as [|xs video IH]; intros k; [reflexivity|]. cbn [video_text numbered]. rewrite frame_lines, IH, map_app, map_map, app_assoc. reflexivity.
Qed.
Lemma load_video k video : loadtxt parse (video_text fmt k video) = Ret (map (fun kx => row_of (fst kx) (snd kx)) (numbered k video)).
Proof.
  unfold loadtxt. rewrite video_lines.
  assert (F : forall l, map_option (parse_line parse) (filter (fun l => negb (String.eqb l EmptyString)) (map (fun kx => line_of (fst kx) (snd kx)) l ++ [EmptyString]))
      = Some (map (fun kx => row_of (fst kx) (snd kx)) l)).
  { induction l as [|[z x] l IH]; [reflexivity|]. cbn [map app filter fst snd]. rewrite line_nonempty. cbn [negb map_option]. rewrite parse_line_of, IH. reflexivity. }
  rewrite F. destruct (numbered k video) as [|[z x] l]; [reflexivity|]. cbn [map].
  assert (G : forallb (fun r' => Nat.eqb (length r') (length (row_of z x))) (map (fun kx => row_of (fst kx) (snd kx)) l) = true).
  { apply forallb_forall. intros r I. apply in_map_iff in I. destruct I as (? & <- & _). reflexivity. }
  cbn [fst snd]. rewrite G. reflexivity.
Qed.

(* ---- the parser ---- *)
Lemma map_result_ok {A B} (f : A -> result B) (g : A -> B) l : (forall a, In a l -> f a = Ret (g a)) -> map_result f l = Ret (map g l).
Proof.
  induction l as [|a l IH]; intros H; [reflexivity|]. simpl. rewrite (H a (or_introl eq_refl)), IH; [reflexivity|]. intros; apply H; right; auto.
Qed.
Definition corners (r : list N) : list N :=
  match r with a0 :: a1 :: l :: t :: w :: h :: rest => a0 :: a1 :: l :: t :: f32 (nadd l w) :: f32 (nadd t h) :: rest | _ => r end.
Lemma to_corners_ok r : 7 <= length r -> to_corners f32 r = Ret (corners r).
Proof. destruct r as [|? [|? [|? [|? [|? [|? r]]]]]]; simpl; intros; try lia; reflexivity. Qed.
Lemma det_of_corners r : 7 <= length r -> det_of_row (corners r) = Ret (row_detection f32 r).
Proof. destruct r as [|? [|? [|? [|? [|? [|? [|? r]]]]]]]; simpl; intros; try lia; reflexivity. Qed.
Lemma filter_map_perm k : forall M M', Permutation M M' -> Permutation (rows_of_frame (N := N) k M) (rows_of_frame k M').
Proof.
  intros M M' P. unfold rows_of_frame. induction P; simpl.
  - constructor.
  - destruct (neqb _ _); [constructor|]; assumption.
  - destruct (neqb (nth 0 x n0) _), (neqb (nth 0 y n0) _); try reflexivity. constructor.
  - etransitivity; eassumption.
Qed.
Lemma dets_ok M k : Forall (fun r => 7 <= length r) M ->
  dets_of_frame (map corners M) k = Ret (map (row_detection f32) (rows_of_frame k M)).
Proof.
  intros F. unfold dets_of_frame, rows_of_frame.
  induction F as [|r M H F IH]; [reflexivity|]. cbn [map filter].
  assert (E : (match corners r with a :: _ => neqb a (nofQ (inject_Z k)) | [] => false end) = neqb (nth 0 r n0) (nofQ (inject_Z k))).
  { destruct r as [|? [|? [|? [|? [|? [|? r]]]]]]; simpl in *; try lia; reflexivity. }
  rewrite E. destruct (neqb _ _); [|exact IH]. cbn [map_result map]. rewrite det_of_corners, IH by exact H. reflexivity.
Qed.
Lemma permute_rows (argsort : list N -> list nat) (M : list (list N)) : sorts_column argsort -> Permutation (map (fun i => nth i M []) (argsort (map (fun r => hd n0 r) M))) M.
Proof.
  intros S. etransitivity; [apply Permutation_map, S|]. rewrite map_length.
  assert (E : map (fun i => nth i M []) (seq 0 (length M)) = M).
  { apply (nth_ext _ _ [] []); rewrite map_length, seq_length; auto. intros i Hi. rewrite (nth_indep _ [] (nth 0 M [])) by (rewrite map_length, seq_length; auto).
    rewrite (map_nth (fun i => nth i M []) (seq 0 (length M)) 0 i). rewrite seq_nth by auto. reflexivity. }
  rewrite E. reflexivity.
Qed.
Lemma parser_new argsort text lines n M : sorts_column argsort -> loadtxt parse text = Ret M -> 2 <= length M -> Forall (fun r => 7 <= length r) M ->
  search lines "seqLength" = Ret (InfoInt n) ->
  exists M', Permutation M' M /\
    dp_new parse f32 argsort text lines = Ret (MkParser n 1 (map (fun k => map (row_detection f32) (rows_of_frame k M')) (range1 n))).
Proof.
  intros S L H F SL. unfold dp_new. rewrite L. rewrite (proj2 (Nat.ltb_ge _ _) H).
  pose proof (permute_rows argsort M S) as P. set (M' := map _ (argsort _)) in *. exists M'. split; [exact P|]. cbv zeta.
  assert (F' : Forall (fun r => 7 <= length r) M') by (apply Forall_forall; intros r I; rewrite Forall_forall in F; apply F; eapply Permutation_in; eauto).
  rewrite (map_result_ok _ corners) by (intros r I; apply to_corners_ok; rewrite Forall_forall in F'; auto). rewrite SL.
  rewrite (map_result_ok _ (fun k => map (row_detection f32) (rows_of_frame k M'))); [reflexivity|]. intros. apply dets_ok, F'.
Qed.
Lemma drain_from n (ls : list (list (filedet (N := N)))) : length ls = Z.to_nat n -> forall m k fuel, k + m = length ls -> m <= fuel ->
  drain fuel (MkParser n (Z.of_nat (S k)) ls) = skipn k ls.
Proof.
  intros L. induction m as [|m IH]; intros k fuel E B.
  - rewrite skipn_all2 by lia. destruct fuel; [reflexivity|]. cbn [drain]. unfold dp_next. cbn [dp_frame dp_length]. destruct (Z.leb_spec (Z.of_nat (S k)) n); [lia|reflexivity].
  - destruct fuel as [|fuel]; [lia|]. cbn [drain]. unfold dp_next. cbn [dp_frame dp_length dp_lists]. destruct (Z.leb_spec (Z.of_nat (S k)) n); [|lia].
    replace (Z.to_nat (Z.of_nat (S k) + 1 - 2)) with k by lia.
    destruct (nth_error ls k) as [l|] eqn:EN; [|apply nth_error_None in EN; lia].
    replace (Z.of_nat (S k) + 1)%Z with (Z.of_nat (S (S k))) by lia. rewrite IH by lia.
    symmetry. apply skipn_nth, EN.
Qed.
Lemma nexts_keeps j : forall s, dp_length (nexts j s) = dp_length (N := N) s /\ dp_lists (nexts j s) = dp_lists s.
Proof.
  induction j as [|j IH]; intros s; [split; reflexivity|]. simpl. destruct (IH (fst (dp_next s))) as [-> ->].
  unfold dp_next. destruct (_ <=? _)%Z; split; reflexivity.
Qed.
Lemma drain_all n (ls : list (list (filedet (N := N)))) fuel : length ls = Z.to_nat n -> Z.to_nat n <= fuel -> drain fuel (MkParser n 1 ls) = ls.
Proof. intros L B. change 1%Z with (Z.of_nat 1). rewrite (drain_from n ls L (length ls) 0 fuel) by lia. reflexivity. Qed.
Lemma parser_lists argsort text lines n M : sorts_column argsort -> loadtxt parse text = Ret M -> 2 <= length M -> Forall (fun r => 7 <= length r) M ->
  search lines "seqLength" = Ret (InfoInt n) ->
  exists s ls, dp_new parse f32 argsort text lines = Ret s /\ length ls = Z.to_nat n
    /\ (forall j fuel, Z.to_nat n <= fuel -> drain fuel (dp_iter (nexts j s)) = ls)
    /\ (forall k l, nth_error ls k = Some l -> Permutation l (map (row_detection f32) (rows_of_frame (Z.of_nat (S k)) M))).
Proof.
  intros S L H F SL. destruct (parser_new argsort text lines n M S L H F SL) as (M' & P & ->).
  do 2 eexists. split; [reflexivity|]. assert (LL : length (range1 n) = Z.to_nat n) by (unfold range1; rewrite map_length, seq_length; reflexivity).
  split; [rewrite map_length; exact LL|]. split.
  - intros j fuel B. set (s := MkParser _ _ _). unfold dp_iter. destruct (nexts_keeps j s) as [-> ->]. apply drain_all; [rewrite map_length; exact LL|exact B].
  - intros k l E. rewrite nth_error_map in E. unfold range1 in E. rewrite nth_error_map in E.
    destruct (nth_error (seq 0 (Z.to_nat n)) k) as [i|] eqn:EI; [|discriminate].
    assert (i = k). { assert (k < Z.to_nat n) by (rewrite <- (seq_length (Z.to_nat n) 0); apply nth_error_Some; congruence).
      apply (nth_error_nth _ _ 0) in EI. rewrite seq_nth in EI by auto. lia. } subst i.
    simpl in E. injection E as <-. apply Permutation_map, filter_map_perm, P.
Qed.

(* ---- round trip ---- *)
Lemma row_frame k j x : neqb (nth 0 (row_of k x) n0) (nofQ (inject_Z j)) = Z.eqb k j.
Proof. apply (tx_distinct _ _ _ OK). Qed.
Lemma rows_app (k : Z) (A B : list (list N)) : rows_of_frame k (A ++ B) = rows_of_frame k A ++ rows_of_frame k B.
Proof. apply filter_app. Qed.
Lemma rows_same k xs : rows_of_frame k (map (fun kx => row_of (fst kx) (snd kx)) (map (pair k) xs)) = map (row_of k) xs.
Proof. induction xs as [|x xs IH]; [reflexivity|]. unfold rows_of_frame in *. cbn [map filter fst snd]. rewrite row_frame, Z.eqb_refl, IH. reflexivity. Qed.
Lemma rows_other k j xs : k <> j -> rows_of_frame j (map (fun kx => row_of (fst kx) (snd kx)) (map (pair k) xs)) = [].
Proof.
  intros H. induction xs as [|x xs IH]; [reflexivity|]. unfold rows_of_frame in *. cbn [map filter fst snd]. rewrite row_frame, (proj2 (Z.eqb_neq _ _) H), IH. reflexivity.
Qed.
Lemma rows_later video : forall k j, (j < k)%Z -> rows_of_frame j (map (fun kx => row_of (fst kx) (snd kx)) (numbered k video)) = [].
Proof.
  induction video as [|xs video IH]; intros k j H; [reflexivity|]. cbn [numbered]. rewrite map_app, rows_app, rows_other, IH by lia. reflexivity.
Qed.
Lemma numbered_rows : forall video k j xs, nth_error video j = Some xs ->
  rows_of_frame (k + Z.of_nat j) (map (fun kx => row_of (fst kx) (snd kx)) (numbered k video)) = map (row_of (k + Z.of_nat j)) xs.
Proof.
  induction video as [|ys video IH]; intros k [|j] xs E; try discriminate; cbn [numbered]; rewrite map_app, rows_app.
  - injection E as ->. rewrite Z.add_0_r, rows_same, rows_later by lia. apply app_nil_r.
  - rewrite rows_other by lia. replace (k + Z.of_nat (S j))%Z with (k + 1 + Z.of_nat j)%Z by lia. apply IH, E.
Qed.
Lemma numbered_length video : forall k, length (numbered k video) = length (concat video).
Proof. induction video as [|xs video IH]; intros k; [reflexivity|]. cbn [numbered concat]. rewrite !app_length, map_length, IH. reflexivity. Qed.
Lemma row_det k x : row_detection f32 (row_of k x) = box_detection f32 x.
Proof. reflexivity. Qed.
Lemma round_trip argsort lines n video : sorts_column argsort -> search lines "seqLength" = Ret (InfoInt n) -> 2 <= length (concat video) ->
  Z.of_nat (length video) = n ->
  exists s ls, dp_new parse f32 argsort (video_text fmt 1 video) lines = Ret s
    /\ (forall j fuel, length video <= fuel -> drain fuel (dp_iter (nexts j s)) = ls)
    /\ Forall2 (fun l xs => Permutation l (map (box_detection f32) xs)) ls video.
Proof.
  intros S SL H E. destruct (parser_lists argsort (video_text fmt 1 video) lines n _ S (load_video 1 video)) as (s & ls & A & B & C & D).
  - rewrite map_length, numbered_length. exact H.
  - apply Forall_forall. intros r I. apply in_map_iff in I. destruct I as (? & <- & _). simpl. lia.
  - exact SL.
  - exists s, ls. split; [exact A|]. split; [intros; apply C; lia|].
    assert (L : length ls = length video) by lia. clear - OK D L.
    assert (G : forall k l, nth_error ls k = Some l -> exists xs, nth_error video k = Some xs /\ Permutation l (map (box_detection f32) xs)).
    { intros k l EL. assert (k < length video) by (rewrite <- L; apply nth_error_Some; congruence).
      destruct (nth_error video k) as [xs|] eqn:EV; [|apply nth_error_None in EV; lia]. exists xs. split; [reflexivity|].
      specialize (D k l EL). replace (Z.of_nat (Datatypes.S k)) with (1 + Z.of_nat k)%Z in D by lia. rewrite (numbered_rows video 1 k xs EV), map_map in D. exact D. }
    clear D. revert video L G. induction ls as [|l ls IH]; intros [|xs video] L G; try discriminate; constructor.
    + destruct (G 0 l eq_refl) as (xs' & E1 & P). injection E1 as ->. exact P.
    + apply IH; [simpl in L; lia|]. intros k l' E. apply (G (Datatypes.S k) l' E).
Qed.
Lemma box_exact x : ring_num N -> (forall v, f32 v = v) -> box_detection f32 x = exact_detection x.
Proof.
  intros R F. unfold box_detection, exact_detection. cbv zeta. rewrite !F.
  assert (E : forall a b : N, nadd a (nsub b a) = b). { intros. rewrite (Rsub_def R), (Radd_comm R b), (Radd_assoc R), (Ropp_def R), (Radd_0_l R). reflexivity. }
  rewrite !E. reflexivity.
Qed.

(* ---- accumulators ---- *)
Definition mat_of (rows : list (mrow (N := N))) : pmatrix := match rows with [] => PEmpty | [r] => PFlat r | _ => PMatrix rows end.
Lemma add_row_mat r rows : add_row r (mat_of rows) = mat_of (rows ++ [r]).
Proof. destruct rows as [|a [|b rows]]; reflexivity. Qed.
Definition raw_row (k : Z) (x : box N) : mrow := MkRow k (Some (b_id x)) (b_left x) (b_top x) (nsub (b_right x) (b_left x)) (nsub (b_bottom x) (b_top x)).
Lemma ac_rows_spec k ps : forall xs s rows, Forall2 shows_box ps xs -> ac_current s = mat_of rows ->
  ac_rows k ps s = (MkAccs (ac_matrixes s) (ac_paths s) (ac_frame s) (mat_of (rows ++ map (raw_row k) xs)) (ac_left s), Ret tt).
Proof.
  induction ps as [|p ps IH]; intros xs s rows F C; inversion F; subst; cbn [ac_rows map].
  - rewrite app_nil_r, <- C. destruct s; reflexivity.
  - rewrite (box_of_shows _ _ H1). destruct H1 as [I _]. rewrite I, C, add_row_mat. erewrite IH; [|exact H3|reflexivity]. cbn. rewrite <- app_assoc. reflexivity.
Qed.
Fixpoint raw_rows (k : Z) (video : list (list (box N))) : list mrow :=
  match video with [] => [] | xs :: video' => map (raw_row k) xs ++ raw_rows (k + 1) video' end.
Lemma updates_spec ps : forall video s rows f n, Forall2 (Forall2 shows_box) ps video -> ac_current s = mat_of rows ->
  ac_frame s = Some f -> ac_left s = Some n -> length ps = S n ->
  updates ps s = (MkAccs (ac_matrixes s ++ [mat_of (rows ++ raw_rows f video)]) (ac_paths s) (Some (f + Z.of_nat (length ps))%Z)
                     (mat_of (rows ++ raw_rows f video)) (Some 0), Ret tt).
Proof.
  induction ps as [|p ps IH]; intros video s rows f n F C Ef El L; [discriminate|]. inversion F; subst. cbn [updates raw_rows]. unfold ac_update. rewrite Ef, (ac_rows_spec _ _ _ _ _ H1 C). cbn [ac_left ac_matrixes ac_paths ac_frame ac_current].
  simpl in L. rewrite El. destruct n as [|k].
  - destruct ps; [|simpl in L; lia]. inversion H3; subst. cbn [updates raw_rows length]. rewrite app_nil_r. do 2 f_equal.
  - erewrite IH; [|exact H3|reflexivity|reflexivity|reflexivity|lia]. cbn [ac_matrixes ac_paths length]. rewrite <- app_assoc. do 3 f_equal. lia.
Qed.
Lemma load_mat rows : length rows <> 1 -> load_motchallenge (mat_of rows) (-1) =
  Ret (map (fun r => MkRow (mr_frame r) (mr_id r) (nsub (mr_left r) n1) (nsub (mr_top r) n1) (mr_width r) (mr_height r)) rows).
Proof. destruct rows as [|a [|b rows]]; simpl; intros; try lia; reflexivity. Qed.
Lemma raw_video video : forall k, map (fun r => MkRow (mr_frame r) (mr_id r) (nsub (mr_left r) n1) (nsub (mr_top r) n1) (mr_width r) (mr_height r)) (raw_rows k video) = video_rows k video.
Proof. induction video as [|xs video IH]; intros k; [reflexivity|]. cbn [raw_rows video_rows]. rewrite map_app, map_map, IH. reflexivity. Qed.
Lemma raw_length video : forall k, length (raw_rows k video) = length (concat video).
Proof. induction video as [|xs video IH]; intros k; [reflexivity|]. cbn [raw_rows concat]. rewrite !app_length, map_length, IH. reflexivity. Qed.
Lemma sessions_spec vs : forall (xs : list (string * list (list (box N)))) s, Forall2 good_session vs xs ->
  exists s', sessions vs s = (s', Ret tt) /\ ac_paths s' = ac_paths s ++ map fst xs
    /\ ac_matrixes s' = ac_matrixes s ++ map (fun x => mat_of (raw_rows 1 (snd x))) xs.
Proof.
  induction vs as [|[path [n ps]] vs IH]; intros xs s F; inversion F; subst.
  - exists s. rewrite !app_nil_r. repeat split.
  - destruct H1 as (EP & EN & NE & FB & _). cbn [sessions]. unfold ac_create. rewrite search_length by lia.
    destruct ps as [|p0 ps']; [contradiction|]. set (ps := p0 :: ps') in *.
    rewrite (updates_spec ps (snd y) _ [] 1%Z (Z.to_nat (n - 1)) FB); [|reflexivity|reflexivity|reflexivity|subst n ps; cbn [length]; lia]. cbn [ac_matrixes ac_paths ac_frame].
    destruct (IH l' (MkAccs (ac_matrixes s ++ [mat_of ([] ++ raw_rows 1 (snd y))]) (ac_paths s ++ [path]) (Some (1 + Z.of_nat (length ps))%Z) (mat_of ([] ++ raw_rows 1 (snd y))) (Some 0)) H3) as (s' & A & B & C).
    exists s'. split; [exact A|]. rewrite B, C. cbn [ac_paths ac_matrixes map]. rewrite <- !app_assoc, EP. split; reflexivity.
Qed.
Lemma split_nonnil c s : split_on c s <> [].
Proof. destruct s; simpl; [discriminate|]. destruct (Ascii.eqb a c); [discriminate|]. destruct (split_on c s); discriminate. Qed.
Lemma split_two c dir name : 2 <= length (split_on c (dir ++ String c name)).
Proof.
  induction dir as [|a dir IH]; cbn [append split_on].
  - rewrite Ascii.eqb_refl. pose proof (split_nonnil c name). destruct (split_on c name); [contradiction|]. simpl. lia.
  - destruct (Ascii.eqb a c); [simpl; lia|]. destruct (split_on c (dir ++ String c name)); simpl in *; lia.
Qed.
Lemma split_dir c dir name : str_mem c name = false -> last (split_on c (dir ++ String c name)) EmptyString = name.
Proof.
  intros M. induction dir as [|a dir IH]; cbn [append split_on].
  - rewrite Ascii.eqb_refl, split_none by exact M. reflexivity.
  - pose proof (split_two c dir name) as NN. destruct (split_on c (dir ++ String c name)) as [|w [|w' ws]]; simpl in NN; try lia.
    destruct (Ascii.eqb a c); exact IH.
Qed.
Lemma basename_of path name : name_of path name -> basename path = name.
Proof.
  intros [M [->|[dir ->]]]; unfold basename; [rewrite split_none by exact M; reflexivity|]. apply (split_dir "/"%char), M.
Qed.
Lemma dict_set_new {A} k (v : A) d : ~ In k (map fst d) -> dict_set k v d = d ++ [(k, v)].
Proof.
  induction d as [|[k' v'] d IH]; intros H; [reflexivity|]. simpl in *. destruct (String.eqb_spec k' k); [exfalso; apply H; left; auto|].
  rewrite IH; [reflexivity|tauto].
Qed.
Lemma dict_of_nodup {A} (l : list (string * A)) : NoDup (map fst l) -> dict_of l = l.
Proof.
  unfold dict_of. assert (G : forall l d : list (string * A), NoDup (map fst (d ++ l)) -> fold_left (fun d kv => dict_set (fst kv) (snd kv) d) l d = d ++ l).
  { clear l. induction l as [|[k v] l IH]; intros d H; simpl; [symmetry; apply app_nil_r|]. rewrite dict_set_new.
    - rewrite IH; rewrite <- app_assoc; [reflexivity|exact H].
    - rewrite map_app in H. cbn [map fst] in H. apply NoDup_remove_2 in H. intros I. apply H. apply in_or_app. left; exact I. }
  intros H. apply (G l []), H.
Qed.
Lemma evaluated_spec vs (xs : list (string * list (list (box N)))) names : Forall2 good_session vs xs -> Forall2 name_of (map fst xs) names -> NoDup names ->
  exists s', sessions vs ac_new = (s', Ret tt) /\ ac_evaluated s' = Ret (combine names (map (fun x => video_rows 1 (snd x)) xs)).
Proof.
  intros F FN ND. destruct (sessions_spec vs xs ac_new F) as (s' & A & B & C). exists s'. split; [exact A|].
  cbn [ac_new ac_paths ac_matrixes app] in B, C. unfold ac_evaluated. rewrite B, C, map_length.
  rewrite (map_result_ok _ (fun n => (nth n names EmptyString, nth n (map (fun x => video_rows 1 (snd x)) xs) []))).
  - assert (E : map (fun n => (nth n names EmptyString, nth n (map (fun x => video_rows 1 (snd x)) xs) [])) (seq 0 (length xs)) = combine names (map (fun x => video_rows 1 (snd x)) xs)).
    { pose proof (f2_length _ _ _ FN) as L. rewrite map_length in L.
      apply (nth_ext _ _ (EmptyString, []) (EmptyString, [])); rewrite !map_length, seq_length; [rewrite combine_length, map_length; lia|].
      intros i Hi. rewrite combine_nth by (rewrite map_length; lia).
      rewrite (nth_indep _ _ (nth 0 names EmptyString, nth 0 (map (fun x => video_rows 1 (snd x)) xs) [])) by (rewrite map_length, seq_length; exact Hi).
      rewrite (map_nth (fun n => (nth n names EmptyString, nth n (map (fun x => video_rows 1 (snd x)) xs) [])) (seq 0 (length xs)) 0 i), seq_nth by exact Hi. reflexivity. }
    rewrite E, dict_of_nodup; [reflexivity|].
    pose proof (f2_length _ _ _ FN) as L. rewrite map_length in L.
    assert (G : forall (A B : Type) (a : list A) (b : list B), length a = length b -> map fst (combine a b) = a).
    { induction a as [|? a IHa]; intros [|? b] HL; simpl in *; try lia; [reflexivity|]. rewrite IHa by lia. reflexivity. }
    rewrite G; [exact ND|rewrite map_length; lia].
  - intros n I. apply in_seq in I.
    destruct (nth_error xs n) as [x|] eqn:EX; [|apply nth_error_None in EX; lia].
    rewrite nth_error_map, EX. cbn [option_map].
    assert (GS : exists v, good_session v x). { clear - F EX. revert n EX. induction F as [|v x' vs xs H F IH]; intros [|n] E; try discriminate; [injection E as <-; eauto|eauto]. }
    destruct GS as ([path [k ps]] & _ & _ & _ & _ & NE). rewrite load_mat by (rewrite raw_length; exact NE).
    rewrite raw_video. do 2 f_equal.
    + apply basename_of. clear - FN EX. revert names n FN EX. induction xs as [|y xs IH]; intros names [|n] FN E; try discriminate; inversion FN; subst.
      * injection E as <-. exact H1.
      * simpl. apply IH; auto.
    + symmetry. apply nth_error_nth. rewrite nth_error_map, EX. reflexivity.
Qed.
End M.

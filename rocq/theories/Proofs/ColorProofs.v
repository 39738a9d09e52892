From Coq Require Import ZArith QArith Bool Arith Ascii String List Lia.
From Verif Require Import Model.Num Model.Base Model.Images Model.Strings Model.Color Model.Drawing Spec.DrawingSpec Spec.ColorSpec Proofs.DistanceProofs Proofs.MetricsProofs.
Import ListNotations.
Local Open Scope nat_scope.

Definition digits16 : list ascii := chars "0123456789abcdef".
Definition d16 (n : Z) : ascii := nth (Z.to_nat n) digits16 "0"%char.
Lemma nibble_cases n : nibble n -> In n [0; 1; 2; 3; 4; 5; 6; 7; 8; 9; 10; 11; 12; 13; 14; 15]%Z.
Proof. unfold nibble. intros H. cbn. lia. Qed.
Lemma digit16_char n : nibble n -> digit16 n = String (d16 n) EmptyString /\ is_hex (d16 n) = true /\ hex_val (d16 n) = n.
Proof. intros H. apply nibble_cases in H. cbn in H. repeat (destruct H as [<-|H]; [vm_compute; repeat split|]). destruct H. Qed.
Lemma hex_chars a : is_hex a = true -> exists n, nibble n /\ a = d16 n.
Proof.
  intros H. exists (hex_val a). destruct a as [[] [] [] [] [] [] [] []]; try discriminate H; (split; [split; vm_compute; congruence|reflexivity]).
Qed.
Lemma byte_nibbles v : byte v -> nibble (v / 16) /\ nibble (v mod 16).
Proof. unfold byte, nibble. intros H. split; [split; [apply Z.div_pos; lia|apply Z.div_lt_upper_bound; lia]|apply Z.mod_pos_bound; lia]. Qed.
Lemma chars_hex6 r g b : byte r -> byte g -> byte b -> chars (hex6 r g b) = ["#"%char; d16 (r / 16); d16 (r mod 16); d16 (g / 16); d16 (g mod 16); d16 (b / 16); d16 (b mod 16)].
Proof.
  intros R G B. apply byte_nibbles in R, G, B. destruct R as [R1 R2], G as [G1 G2], B as [B1 B2]. unfold hex6.
  rewrite (proj1 (digit16_char _ R1)), (proj1 (digit16_char _ R2)), (proj1 (digit16_char _ G1)), (proj1 (digit16_char _ G2)), (proj1 (digit16_char _ B1)), (proj1 (digit16_char _ B2)). reflexivity.
Qed.
Lemma chars_hex3 r g b : nibble r -> nibble g -> nibble b -> chars (hex3 r g b) = ["#"%char; d16 r; d16 g; d16 b].
Proof. intros R G B. unfold hex3. rewrite (proj1 (digit16_char _ R)), (proj1 (digit16_char _ G)), (proj1 (digit16_char _ B)). reflexivity. Qed.

Lemma hex_six a b c d e f l : forallb is_hex [a; b; c; d; e; f] = true -> at_end l = true ->
  hex_to_bgr (unchars ("#"%char :: a :: b :: c :: d :: e :: f :: l)) = Ret (hex2 e f, hex2 c d, hex2 a b).
Proof. intros H E. unfold hex_to_bgr. rewrite chars_unchars, H, E. reflexivity. Qed.
Lemma hex_three a b c l : forallb is_hex [a; b; c] = true -> at_end l = true ->
  hex_to_bgr (unchars ("#"%char :: a :: b :: c :: l)) = Ret (hex2 c c, hex2 b b, hex2 a a).
Proof.
  intros H E. unfold hex_to_bgr. rewrite chars_unchars. rewrite H, E. destruct l as [|x [|y l]]; try discriminate; reflexivity.
Qed.
Lemma hex_long r g b e : byte r -> byte g -> byte b -> at_end (chars e) = true -> hex_to_bgr (hex6 r g b ++ e) = Ret (b, g, r).
Proof.
  intros R G B E. assert (S : (hex6 r g b ++ e)%string = unchars (chars (hex6 r g b) ++ chars e)).
  { apply chars_inj. rewrite chars_unchars, chars_app. reflexivity. }
  rewrite S, chars_hex6 by assumption. cbn [app]. apply byte_nibbles in R as R', G as G', B as B'. destruct R' as [R1 R2], G' as [G1 G2], B' as [B1 B2].
  apply digit16_char in R1, R2, G1, G2, B1, B2. destruct R1 as (_ & R1 & R1'), R2 as (_ & R2 & R2'), G1 as (_ & G1 & G1'), G2 as (_ & G2 & G2'), B1 as (_ & B1 & B1'), B2 as (_ & B2 & B2').
  rewrite hex_six; [|cbn [forallb]; rewrite R1, R2, G1, G2, B1, B2; reflexivity|exact E]. unfold hex2. rewrite R1', R2', G1', G2', B1', B2'.
  assert (D : forall v, (v / 16 * 16 + v mod 16 = v)%Z) by (intros v; pose proof (Z.div_mod v 16); lia). rewrite !D. reflexivity.
Qed.
Lemma hex_short r g b e : nibble r -> nibble g -> nibble b -> at_end (chars e) = true -> hex_to_bgr (hex3 r g b ++ e) = Ret (17 * b, 17 * g, 17 * r)%Z.
Proof.
  intros R G B E. assert (S : (hex3 r g b ++ e)%string = unchars (chars (hex3 r g b) ++ chars e)).
  { apply chars_inj. rewrite chars_unchars, chars_app. reflexivity. }
  rewrite S, chars_hex3 by assumption. cbn [app]. apply digit16_char in R, G, B. destruct R as (_ & R & R'), G as (_ & G & G'), B as (_ & B & B').
  rewrite hex_three; [|cbn [forallb]; rewrite R, G, B; reflexivity|exact E]. unfold hex2. rewrite R', G', B'.
  f_equal. f_equal; [f_equal|]; lia.
Qed.
Lemma end_text l : at_end l = true -> unchars l = EmptyString \/ unchars l = String newline EmptyString.
Proof. destruct l as [|c [|? ?]]; try discriminate; [left; reflexivity|]. intros H. apply Ascii.eqb_eq in H. subst. right; reflexivity. Qed.
Lemma nib_byte a b : nibble a -> nibble b -> byte (16 * a + b) /\ ((16 * a + b) / 16 = a)%Z /\ ((16 * a + b) mod 16 = b)%Z.
Proof.
  unfold nibble, byte. intros A B. split; [lia|]. rewrite (Z.mul_comm 16 a). split.
  - rewrite Z.div_add_l, Z.div_small by lia. lia.
  - rewrite Z.add_comm, Z.mod_add, Z.mod_small by lia. reflexivity.
Qed.
Lemma hex_only s x : hex_to_bgr s = x ->
  (exists r g b e, byte r /\ byte g /\ byte b /\ (e = EmptyString \/ e = String newline EmptyString) /\ s = (hex6 r g b ++ e)%string /\ x = Ret (b, g, r)) \/
  (exists r g b e, nibble r /\ nibble g /\ nibble b /\ (e = EmptyString \/ e = String newline EmptyString) /\ s = (hex3 r g b ++ e)%string /\ x = Ret (17 * b, 17 * g, 17 * r)%Z) \/
  x = Raise EValueError.
Proof.
  intros <-. pose proof (unchars_chars s) as US. unfold hex_to_bgr.
  destruct (chars s) as [|h l] eqn:ES; [right; right; reflexivity|].
  assert (HS : h = "#"%char \/ (match h :: l with "#"%char :: _ => False | _ => True end)).
  { destruct (Ascii.eqb_spec h "#"%char); [left; auto|right]. destruct h as [[] [] [] [] [] [] [] []]; try exact Logic.I. congruence. }
  destruct HS as [->|HS].
  2:{ right; right. destruct h as [[] [] [] [] [] [] [] []]; try reflexivity. contradiction. }
  destruct l as [|a [|b [|c l3]]]; try (right; right; reflexivity).
  assert (T3 : forall y, (forallb is_hex [a; b; c] && at_end l3 = true -> y = Ret (hex2 c c, hex2 b b, hex2 a a)) -> (forallb is_hex [a; b; c] && at_end l3 = false -> y = Raise EValueError) ->
     (exists r g b e, nibble r /\ nibble g /\ nibble b /\ (e = EmptyString \/ e = String newline EmptyString) /\ s = (hex3 r g b ++ e)%string /\ y = Ret (17 * b, 17 * g, 17 * r)%Z) \/ y = Raise EValueError).
  { intros y Y1 Y2. destruct (forallb is_hex [a; b; c] && at_end l3) eqn:T; [|right; auto]. left. rewrite (Y1 eq_refl).
    apply andb_true_iff in T. destruct T as [T TE]. cbn [forallb] in T. rewrite !andb_true_iff in T. destruct T as (Ta & Tb & Tc & _).
    apply hex_chars in Ta, Tb, Tc. destruct Ta as (ra & Ra & ->), Tb as (rb & Rb & ->), Tc as (rc & Rc & ->).
    exists ra, rb, rc, (unchars l3). split; [exact Ra|]. split; [exact Rb|]. split; [exact Rc|]. split; [apply end_text, TE|]. split.
    - apply chars_inj. rewrite chars_app, chars_hex3, chars_unchars by assumption. rewrite ES. reflexivity.
    - unfold hex2. rewrite (proj2 (proj2 (digit16_char _ Ra))), (proj2 (proj2 (digit16_char _ Rb))), (proj2 (proj2 (digit16_char _ Rc))).
      f_equal. f_equal; [f_equal|]; lia. }
  destruct l3 as [|d [|e [|f l6]]]; try (right; apply T3; intros ->; reflexivity).
  destruct (forallb is_hex [a; b; c; d; e; f] && at_end l6) eqn:T.
  - left. apply andb_true_iff in T. destruct T as [T TE]. cbn [forallb] in T. rewrite !andb_true_iff in T. destruct T as (Ta & Tb & Tc & Td & Te & Tf & _).
    apply hex_chars in Ta, Tb, Tc, Td, Te, Tf.
    destruct Ta as (na & Ha & ->), Tb as (nb & Hb & ->), Tc as (nc & Hc & ->), Td as (nd & Hd & ->), Te as (ne & He & ->), Tf as (nf & Hf & ->).
    destruct (nib_byte na nb Ha Hb) as (B1 & D1 & M1), (nib_byte nc nd Hc Hd) as (B2 & D2 & M2), (nib_byte ne nf He Hf) as (B3 & D3 & M3).
    exists (16 * na + nb)%Z, (16 * nc + nd)%Z, (16 * ne + nf)%Z, (unchars l6). split; [exact B1|]. split; [exact B2|]. split; [exact B3|]. split; [apply end_text, TE|]. split.
    + apply chars_inj. rewrite chars_app, chars_hex6, chars_unchars by assumption. rewrite ES, D1, M1, D2, M2, D3, M3. reflexivity.
    + unfold hex2. rewrite (proj2 (proj2 (digit16_char _ Ha))), (proj2 (proj2 (digit16_char _ Hb))), (proj2 (proj2 (digit16_char _ Hc))),
        (proj2 (proj2 (digit16_char _ Hd))), (proj2 (proj2 (digit16_char _ He))), (proj2 (proj2 (digit16_char _ Hf))).
      f_equal. f_equal; [f_equal|]; lia.
  - right. apply T3; intros ->; reflexivity.
Qed.
Lemma hex_bytes s c : hex_to_bgr s = Ret c -> byte_color c.
Proof.
  intros H. destruct (hex_only s _ H) as [(r & g & b & e & R & G & B & _ & _ & E)|[(r & g & b & e & R & G & B & _ & _ & E)|E]]; try discriminate; injection E as ->.
  - cbn. auto.
  - unfold nibble in *. change (byte (17 * b) /\ byte (17 * g) /\ byte (17 * r)). unfold byte. lia.
Qed.
Definition okb (c : bgr) : bool := let '(b, g, r) := c in ((0 <=? b) && (b <? 256) && ((0 <=? g) && (g <? 256)) && ((0 <=? r) && (r <? 256)))%Z.
Lemma okb_byte c : okb c = true -> byte_color c.
Proof. destruct c as [[b g] r]. unfold okb, byte_color, byte. rewrite !andb_true_iff, !Z.leb_le, !Z.ltb_lt. tauto. Qed.
Lemma lookup_in {A} k (l : list (string * A)) v : lookup k l = Some v -> In (k, v) l.
Proof. induction l as [|[k' v'] l IH]; [discriminate|]. cbn. destruct (String.eqb_spec k' k); [intros H; injection H as ->; subst; left; reflexivity|right; auto]. Qed.
Lemma table_ok : forallb (fun kv => match snd kv with CHex s => match hex_to_bgr s with Ret c => okb c | Raise _ => false end | CTuple c => okb c end) color_table = true.
Proof. vm_compute. reflexivity. Qed.
Lemma named_ok name : (exists c, named_color name = Ret c /\ byte_color c) \/ (named_color name = Raise EAttributeError /\ ~ In name (map fst color_table)).
Proof.
  unfold named_color. destruct (lookup name color_table) as [d|] eqn:E.
  - left. apply lookup_in in E. pose proof table_ok as T. rewrite forallb_forall in T. specialize (T _ E). cbn [snd] in T.
    destruct d as [s|c].
    + destruct (hex_to_bgr s); [|discriminate]. eexists; split; [reflexivity|]. apply okb_byte, T.
    + eexists; split; [reflexivity|]. apply okb_byte, T.
  - right. split; [reflexivity|]. clear - E. induction color_table as [|[k v] l IH]; [intros []|]. cbn in *. destruct (String.eqb_spec k name); [discriminate|].
    intros [H|H]; [congruence|]. apply IH; auto.
Qed.
Lemma parse_string_bytes s c : parse_color (ColStr s) = Ret c -> byte_color c.
Proof.
  cbn. intros H.
  assert (G : hex_to_bgr s = Ret c \/ named_color s = Ret c).
  { destruct s as [|a s]; [right; exact H|]. destruct a as [[] [] [] [] [] [] [] []]; auto. }
  destruct G as [G|G]; [eapply hex_bytes, G|]. destruct (named_ok s) as [(c' & E & B)|[E _]]; rewrite E in G; [injection G as <-; exact B|discriminate].
Qed.

(* ---- palettes ---- *)
Lemma set_fails arg p p' e : set_palette arg p = (p', Raise e) -> p' = p.
Proof.
  unfold set_palette. destruct arg as [name|cs].
  - destruct (lookup name palette_table); intros H; inversion H; reflexivity.
  - destruct (parse_all cs); intros H; inversion H; reflexivity.
Qed.
Lemma set_default_fails c p p' e : set_default_color c p = (p', Raise e) -> p' = p.
Proof. unfold set_default_color. destruct (parse_color c); intros H; inversion H; reflexivity. Qed.
Definition bgr_eqb (a b : bgr) : bool := let '(x, y, z) := a in let '(u, v, w) := b in ((x =? u) && (y =? v) && (z =? w))%Z.
Lemma bgr_eqb_eq a b : bgr_eqb a b = true <-> a = b.
Proof. destruct a as [[x y] z], b as [[u v] w]. cbn. rewrite !andb_true_iff, !Z.eqb_eq. split; [intros [[-> ->] ->]; reflexivity|intros E; injection E; auto]. Qed.
Fixpoint nodupb (l : list bgr) : bool := match l with [] => true | a :: l' => negb (existsb (bgr_eqb a) l') && nodupb l' end.
Lemma nodupb_ok l : nodupb l = true -> NoDup l.
Proof.
  induction l as [|a l IH]; intros H; [constructor|]. cbn in H. apply andb_true_iff in H. destruct H as [A H]. constructor; [|auto].
  intros I. apply negb_true_iff in A. assert (existsb (bgr_eqb a) l = true); [|congruence]. apply existsb_exists. exists a. split; [exact I|apply bgr_eqb_eq; reflexivity].
Qed.
Lemma set_name name p : let valid := ["tab10"; "tab20"; "colorblind"]%string in
  (In name valid -> exists p', set_palette (inl name) p = (p', Ret tt) /\ pa_default p' = pa_default p /\ NoDup (pa_colors p') /\
     length (pa_colors p') = (if String.eqb name "tab20" then 20 else 10)) /\
  (~ In name valid -> set_palette (inl name) p = (p, Raise EValueError)).
Proof.
  intros valid. split.
  - intros H. assert (ND : NoDup (table_colors (match lookup name palette_table with Some ns => ns | None => [] end))).
    { apply nodupb_ok. subst valid. cbn [In] in H. destruct H as [<-|[<-|[<-|[]]]]; vm_compute; reflexivity. }
    repeat (destruct H as [<-|H]; [eexists; split; [reflexivity|]; split; [reflexivity|]; split; [exact ND|vm_compute; reflexivity]|]). destruct H.
  - intros H. cbn [set_palette]. destruct (lookup name palette_table) eqn:E; [|reflexivity]. exfalso. apply H. apply lookup_in in E.
    cbn in E. destruct E as [E|[E|[E|[]]]]; injection E as <- _; cbn; auto.
Qed.
Lemma set_list cs p vs : Forall2 (fun c v => parse_color c = Ret v) cs vs -> set_palette (inr cs) p = (MkPalette vs (pa_default p), Ret tt).
Proof.
  intros F. assert (E : parse_all cs = Ret vs). { induction F as [|c v cs vs H F IH]; [reflexivity|]. cbn. rewrite H, IH. reflexivity. }
  cbn. rewrite E. reflexivity.
Qed.
Lemma hash_small z : (0 <= z < hash_modulus)%Z -> hash_int z = z.
Proof.
  intros H. unfold hash_int. rewrite Z.abs_eq, Z.mod_small by lia. destruct (Z.eq_dec z 0) as [->|N]; [reflexivity|].
  rewrite Z.sgn_pos, Z.mul_1_l by lia. destruct (Z.eqb_spec z (-1)); [lia|reflexivity].
Qed.
Lemma choose_in p h : pa_colors p <> [] -> exists c, choose_color p (Some h) = Ret c /\ In c (pa_colors p).
Proof.
  intros NE. unfold choose_color. destruct (length (pa_colors p)) as [|k] eqn:L; [destruct (pa_colors p); [contradiction|discriminate]|].
  pose proof (Z.mod_pos_bound (Z.abs h) (Z.of_nat (S k)) ltac:(lia)).
  destruct (nth_error (pa_colors p) (Z.to_nat (Z.abs h mod Z.of_nat (S k)))) as [c|] eqn:E.
  - exists c. split; [reflexivity|]. eapply nth_error_In, E.
  - apply nth_error_None in E. lia.
Qed.
Lemma choose_distinct p a b ca cb : NoDup (pa_colors p) -> (Z.of_nat a < hash_modulus)%Z -> (Z.of_nat b < hash_modulus)%Z ->
  a <> b -> (Z.abs (Z.of_nat a - Z.of_nat b) < Z.of_nat (length (pa_colors p)))%Z ->
  choose_color p (hash_id (Some a)) = Ret ca -> choose_color p (hash_id (Some b)) = Ret cb -> ca <> cb.
Proof.
  intros ND A B NE D. unfold hash_id. cbn [option_map]. rewrite !hash_small by lia. unfold choose_color.
  destruct (length (pa_colors p)) as [|k] eqn:L; [discriminate|]. rewrite !Z.abs_eq by lia. set (n := Z.of_nat (S k)) in *.
  pose proof (Z.mod_pos_bound (Z.of_nat a) n ltac:(lia)) as PA. pose proof (Z.mod_pos_bound (Z.of_nat b) n ltac:(lia)) as PB.
  destruct (nth_error (pa_colors p) (Z.to_nat (Z.of_nat a mod n))) as [x|] eqn:EA; [|discriminate].
  destruct (nth_error (pa_colors p) (Z.to_nat (Z.of_nat b mod n))) as [y|] eqn:EB; [|discriminate].
  intros HA HB. injection HA as <-. injection HB as <-. intros ->.
  assert (E : Z.to_nat (Z.of_nat a mod n) = Z.to_nat (Z.of_nat b mod n)).
  { eapply NoDup_nth_error; [exact ND| |congruence]. apply nth_error_Some. congruence. }
  assert (M : (Z.of_nat a mod n = Z.of_nat b mod n)%Z) by lia.
  pose proof (Z.div_mod (Z.of_nat a) n ltac:(lia)). pose proof (Z.div_mod (Z.of_nat b) n ltac:(lia)).
  assert (Z.of_nat a / n = Z.of_nat b / n)%Z by nia. nia.
Qed.

Lemma app_empty s : (s ++ EmptyString)%string = s.
Proof. induction s as [|a s IH]; [reflexivity|]. cbn. rewrite IH. reflexivity. Qed.
Lemma hex_all s :
  (forall r g b, byte r -> byte g -> byte b -> s = hex6 r g b -> hex_to_bgr s = Ret (b, g, r)) /\
  (forall r g b, nibble r -> nibble g -> nibble b -> s = hex3 r g b -> hex_to_bgr s = Ret (17 * b, 17 * g, 17 * r)%Z) /\
  ((forall r g b e, e = EmptyString \/ e = String newline EmptyString -> byte r -> byte g -> byte b -> s <> (hex6 r g b ++ e)%string) ->
   (forall r g b e, e = EmptyString \/ e = String newline EmptyString -> nibble r -> nibble g -> nibble b -> s <> (hex3 r g b ++ e)%string) ->
   hex_to_bgr s = Raise EValueError) /\
  (forall c, hex_to_bgr s = Ret c -> byte_color c).
Proof.
  split; [|split; [|split]].
  - intros r g b R G B ->. rewrite <- (app_empty (hex6 r g b)). apply hex_long; auto.
  - intros r g b R G B ->. rewrite <- (app_empty (hex3 r g b)). apply hex_short; auto.
  - intros A B. destruct (hex_only s _ eq_refl) as [(r & g & b & e & R & G & C & E & H & _)|[(r & g & b & e & R & G & C & E & H & _)|E]]; [|  |exact E].
    + exfalso. exact (A r g b e E R G C H).
    + exfalso. exact (B r g b e E R G C H).
  - apply hex_bytes.
Qed.
Lemma uppercase : parse_color (ColStr "#FF0000") = Raise EValueError.
Proof. vm_compute. reflexivity. Qed.
Lemma parse_cases s : (exists t, s = String "#" t /\ parse_color (ColStr s) = hex_to_bgr s) \/ parse_color (ColStr s) = named_color s.
Proof.
  destruct s as [|a s]; [right; reflexivity|]. destruct a as [[] [] [] [] [] [] [] []]; try (right; reflexivity). left. exists s. split; reflexivity.
Qed.
Lemma parse_string s :
  (exists c, parse_color (ColStr s) = Ret c /\ byte_color c) \/
  (parse_color (ColStr s) = Raise EValueError /\ exists t, s = String "#" t) \/
  (parse_color (ColStr s) = Raise EAttributeError /\ ~ In s (map fst color_table)).
Proof.
  destruct (parse_cases s) as [(t & E & ->)| ->].
  - destruct (hex_to_bgr s) as [c|e] eqn:H; [left; exists c; split; [reflexivity|apply (hex_bytes s), H]|]. right. left. split; [|eauto].
    destruct (hex_only s _ eq_refl) as [(? & ? & ? & ? & _ & _ & _ & _ & _ & X)|[(? & ? & ? & ? & _ & _ & _ & _ & _ & X)|X]]; rewrite H in X; congruence.
  - destruct (named_ok s) as [H|H]; [left; exact H|right; right; exact H].
Qed.
Lemma no_hash_names : forallb (fun n => match n with String "#" _ => false | _ => true end) (map fst color_table) = true.
Proof. vm_compute. reflexivity. Qed.
Lemma standard_parse : forallb (fun x => match parse_color (ColStr (fst x)) with Ret c => bgr_eqb c (bgr_of (snd x)) | Raise _ => false end) standard_colors = true.
Proof. vm_compute. reflexivity. Qed.
Lemma parse_name name c : In (name, c) standard_colors -> parse_color (ColStr name) = Ret (bgr_of c).
Proof.
  intros I. pose proof standard_parse as P. rewrite forallb_forall in P. specialize (P _ I). cbn [fst snd] in P.
  destruct (parse_color (ColStr name)) as [v|e]; [|discriminate]. apply bgr_eqb_eq in P. rewrite P. reflexivity.
Qed.
Lemma parse_standard s :
  (exists c, parse_color (ColStr s) = Ret c /\ byte_color c /\ ((exists t, s = String "#" t) \/ exists v, In (s, v) standard_colors /\ c = bgr_of v)) \/
  (parse_color (ColStr s) = Raise EValueError /\ exists t, s = String "#" t) \/
  (parse_color (ColStr s) = Raise EAttributeError /\ ~ In s (map fst standard_colors)).
Proof.
  assert (Only : forall n c, parse_color (ColStr n) = Ret c -> (exists t, n = String "#" t) \/ In n (map fst standard_colors)).
  { intros n c E. destruct (parse_cases n) as [(t & -> & _)|H]; [left; eauto|right]. rewrite H in E. unfold named_color in E.
    destruct (lookup n color_table) as [v|] eqn:L; [|discriminate]. apply lookup_in in L. apply (in_map fst) in L. cbn in L.
    assert (X : forallb (fun n => existsb (String.eqb n) (map fst standard_colors)) (map fst color_table) = true) by (vm_compute; reflexivity).
    rewrite forallb_forall in X. apply X in L. apply existsb_exists in L as (y & Hy & Ey). apply String.eqb_eq in Ey. subst y. exact Hy. }
  destruct (parse_string s) as [(c & E & B)|[H|[E H]]]; [|right; left; exact H|].
  - left. exists c. split; [exact E|]. split; [exact B|]. destruct (Only s c E) as [H|H]; [left; exact H|right]. apply in_map_iff in H as ([n v] & H & I). cbn in H. subst n.
    exists v. split; [exact I|]. apply parse_name in I. congruence.
  - right. right. split; [exact E|]. intros I. apply in_map_iff in I as ([n v] & Hn & I). cbn in Hn. subst n. apply parse_name in I. congruence.
Qed.
Lemma set_standard name p :
  (forall cs, palette_colors name = Some cs -> set_palette (inl name) p = (MkPalette (map bgr_of cs) (pa_default p), Ret tt) /\ NoDup cs) /\
  (palette_colors name = None -> set_palette (inl name) p = (p, Raise EValueError)) /\
  pa_colors palette0 = map bgr_of tab10_colors.
Proof.
  assert (D : forall l, nodupb l = true -> NoDup l) by apply nodupb_ok.
  split; [|split; [|vm_compute; reflexivity]]; unfold palette_colors.
  - intros cs. destruct (String.eqb_spec name "tab10") as [->|N1]; [intros E; injection E as <-; split; [reflexivity|apply D; vm_compute; reflexivity]|].
    destruct (String.eqb_spec name "tab20") as [->|N2]; [intros E; injection E as <-; split; [reflexivity|apply D; vm_compute; reflexivity]|].
    destruct (String.eqb_spec name "colorblind") as [->|N3]; [intros E; injection E as <-; split; [reflexivity|apply D; vm_compute; reflexivity]|discriminate].
  - destruct (String.eqb_spec name "tab10") as [->|N1]; [discriminate|]. destruct (String.eqb_spec name "tab20") as [->|N2]; [discriminate|].
    destruct (String.eqb_spec name "colorblind") as [->|N3]; [discriminate|]. intros _. apply (set_name name p). intros [X|[X|[X|[]]]]; congruence.
Qed.
Lemma set_failures arg c p p' e :
  (set_palette arg p = (p', Raise e) -> p' = p) /\ (set_default_color c p = (p', Raise e) -> p' = p) /\
  (forall v, parse_color c = Ret v -> set_default_color c p = (MkPalette (pa_colors p) v, Ret tt)).
Proof.
  split; [apply set_fails|]. split; [apply set_default_fails|]. intros v E. unfold set_default_color. rewrite E. reflexivity.
Qed.
Lemma choose_all p :
  choose_color p None = Ret (pa_default p) /\
  (pa_colors p <> [] -> forall h, exists c, choose_color p (Some h) = Ret c /\ In c (pa_colors p)) /\
  (pa_colors p = [] -> forall h, choose_color p (Some h) = Raise EZeroDivisionError).
Proof.
  split; [reflexivity|]. split; [intros NE h; apply choose_in, NE|]. intros E h. unfold choose_color. rewrite E. reflexivity.
Qed.

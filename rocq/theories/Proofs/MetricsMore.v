(** The statements of C57-C63, and the counterexamples. *)
From Coq Require Import ZArith QArith Qcanon Qabs Lqa Bool Arith Ascii String List Lia Permutation.
From Verif Require Import Model.Num Model.Base Model.Images Model.Strings Model.Metrics
  Spec.ImageSpec Spec.PointSpec Spec.MetricsSpec Proofs.NumLaws Proofs.RingNums Proofs.ImageProofs Proofs.MetricsProofs.
Import ListNotations.
Local Open Scope nat_scope.

Lemma faded_att att k v : (0 <= att <= 1)%Q -> (0 <= v)%Z ->
  let w := Nat.iter k (fade (1 - att)) v in
  (0 <= w <= v)%Z /\ ((0 < att)%Q -> (v <= Z.of_nat k)%Z -> w = 0%Z) /\ ((att == 0)%Q -> w = v).
Proof.
  intros A V w. destruct (faded_value (1 - att) k v) as (X & Y & Z0); [split; lra|exact V|]. split; [exact X|]. split; intros H; [apply Y; lra|apply Z0; lra].
Qed.
Lemma corner_near (a b : Z) (m : Q) :
  (Qabs (inject_Z (a - b) - m - inject_Z (round_half_even (inject_Z (a - b) - m))) <= 1 # 2)%Q /\
  (forall n : Z, (m == inject_Z n)%Q -> round_half_even (inject_Z (a - b) - m) = (a - b - n)%Z).
Proof.
  split; [apply round_near|]. intros n E. rewrite (round_comp _ (inject_Z (a - b - n))); [apply round_Z|].
  rewrite E. unfold Z.sub. rewrite !inject_Z_plus, !inject_Z_opp. ring.
Qed.
Lemma corner_y_near bh (f : image) (my : Q) :
  let offset := (bh / 2 - Z.of_nat (im_h f) / 2)%Z in
  (Qabs (inject_Z offset - my - inject_Z (corner_y bh f my)) <= 1 # 2)%Q /\
  (forall n : Z, (my == inject_Z n)%Q -> corner_y bh f my = (offset - n)%Z).
Proof. apply corner_near. Qed.
Lemma corner_x_near bw (f : image) (mx : Q) :
  let offset := (bw / 2 - Z.of_nat (im_w f) / 2)%Z in
  (Qabs (inject_Z offset - mx - inject_Z (corner_x bw f mx)) <= 1 # 2)%Q /\
  (forall n : Z, (mx == inject_Z n)%Q -> corner_x bw f mx = (offset - n)%Z).
Proof. apply corner_near. Qed.

Lemma cutout_negative : exists points im out,
  valid_image im /\ get_cutout points im = Ret out /\ In (-1, 0)%Q points /\ In (2, 2)%Q points /\
  inside im 1 1 /\ forall y x, px_rows out y x = None.
Proof.
  exists [(-1, 0); (2, 2)]%Q, (MkImage 4 4 (repeat (repeat [7%Z] 4) 4)), [[]; []].
  split. { split; [reflexivity|]. repeat constructor. }
  split; [vm_compute; reflexivity|]. split; [left; reflexivity|]. split; [right; left; reflexivity|]. split; [split; simpl; lia|].
  intros y x. unfold px_rows. destruct (_ && _); [|reflexivity]. destruct (Z.to_nat y) as [|[|[|?]]]; simpl; try reflexivity; apply nth_error_nil || (destruct (Z.to_nat x); reflexivity).
Qed.

Lemma reads_number n i : (0 <= n)%Z -> reads_as (str_of_Z n) i -> i = InfoInt n.
Proof. intros H [A _]. destruct (str_of_Z_nonneg n H) as [D E]. rewrite (A D), E. reflexivity. Qed.
Lemma search_prefix : exists before name v after i,
  search (map assignment (before ++ (name, v) :: after)) name = Ret i /\ ~ In name (map fst before) /\ ~ reads_as v i.
Proof.
  exists [("seqLengthOld", "7")]%string, "seqLength"%string, "600"%string, [], (InfoStr "ld=7").
  split; [vm_compute; reflexivity|]. split; [intros [H|[]]; discriminate|]. intros [H _]. specialize (H eq_refl). discriminate.
Qed.

Section M.
Context {N : Num}.
Lemma pt_new_ok lines n s0 : search lines "seqLength" = Ret (InfoInt n) -> pt_new lines = Ret s0 -> s0 = MkPT (InfoInt n) 1 true EmptyString.
Proof. unfold pt_new. intros -> H. injection H as <-. reflexivity. Qed.
Lemma predictions_file fmt n lines s0 (video : list (list (prediction (N := N)))) boxes :
  search lines "seqLength" = Ret (InfoInt n) -> pt_new lines = Ret s0 -> (Z.of_nat (length video) <= n)%Z -> (0 < n)%Z ->
  Forall2 (Forall2 shows_box) video boxes ->
  exists s, pt_run fmt video s0 = (s, Ret tt) /\ pt_text s = video_text fmt 1 boxes /\
    (pt_open s = true <-> (Z.of_nat (length video) < n)%Z) /\
    (Z.of_nat (length video) = n -> forall ps, ps <> [] -> exists e, pt_update fmt ps None s = (s, Raise e)).
Proof.
  intros SL NW LE P F. apply (pt_new_ok lines n s0 SL) in NW. subst s0. eexists.
  split. { apply (text_run fmt n video boxes); [exact F|reflexivity| |]; cbn [pt_frame pt_open]; [symmetry; apply Z.leb_le; lia|lia]. }
  cbn [pt_text pt_frame pt_open]. split; [reflexivity|]. split; [rewrite Z.leb_le; lia|].
  intros E ps NE. eapply closed_update; [reflexivity| | |exact NE]; cbn [pt_frame pt_open]; [lia|apply Z.leb_gt; lia].
Qed.
Lemma parser_short parse (f32 : N -> N) argsort text lines M :
  loadtxt parse text = Ret M -> length M < 2 -> dp_new parse f32 argsort text lines = Raise EIndexError.
Proof. intros L H. unfold dp_new. rewrite L, (proj2 (Nat.ltb_lt _ _) H). reflexivity. Qed.

Lemma written_and_read_f32 (fmt : N -> string) parse f32 (OK : text_ok fmt parse f32) argsort lines n s0 video boxes s :
  sorts_column argsort ->
  search lines "seqLength" = Ret (InfoInt n) -> Z.of_nat (length video) = n -> 2 <= length (concat boxes) ->
  pt_new lines = Ret s0 -> Forall2 (Forall2 shows_box) video boxes -> pt_run fmt video s0 = (s, Ret tt) ->
  exists d ls, dp_new parse f32 argsort (pt_text s) lines = Ret d
    /\ (forall j fuel, length video <= fuel -> drain fuel (dp_iter (nexts j d)) = ls)
    /\ Forall2 (fun l xs => Permutation l (map (box_detection f32) xs)) ls boxes.
Proof.
  intros S SL LN H NW F R. pose proof (f2_length _ _ _ F) as LB.
  assert (P : (0 < n)%Z) by (destruct boxes; simpl in *; lia).
  destruct (predictions_file fmt n lines s0 video boxes SL NW ltac:(lia) P F) as (s' & R' & T & _).
  rewrite R in R'. injection R' as <-. rewrite T, LB. apply (round_trip fmt parse f32 OK argsort lines n boxes S SL H). lia.
Qed.
Lemma written_and_read (fmt : N -> string) parse f32 (OK : text_ok fmt parse f32) argsort lines n s0 video boxes s :
  ring_num N -> (forall v, f32 v = v) -> sorts_column argsort ->
  search lines "seqLength" = Ret (InfoInt n) -> Z.of_nat (length video) = n -> 2 <= length (concat boxes) ->
  pt_new lines = Ret s0 -> Forall2 (Forall2 shows_box) video boxes -> pt_run fmt video s0 = (s, Ret tt) ->
  exists d ls, dp_new parse f32 argsort (pt_text s) lines = Ret d
    /\ (forall j fuel, length video <= fuel -> drain fuel (dp_iter (nexts j d)) = ls)
    /\ Forall2 (fun l xs => Permutation l (map exact_detection xs)) ls boxes.
Proof.
  intros RN EX S SL LN H NW F R.
  destruct (written_and_read_f32 fmt parse f32 OK argsort lines n s0 video boxes s S SL LN H NW F R) as (d & ls & A & B & C).
  exists d, ls. split; [exact A|]. split; [exact B|]. clear - C RN EX. induction C as [|l xs ls boxes P C IH]; constructor; auto.
  rewrite (map_ext _ _ (fun x => eq_sym (box_exact f32 x RN EX))). exact P.
Qed.
End M.

Definition qbox (id : nat) (v : Q) : prediction (N := QNum) := MkPred (Some id) [[v : QNum; v : QNum]; [(v + 1)%Q : QNum; (v + 1)%Q : QNum]].
Definition run_all (vs : list (session QNum)) : accs := fst (sessions vs ac_new).
Definition first_rows (vs : list (session QNum)) : list mrow :=
  match ac_evaluated (run_all vs) with Ret ((_, r) :: _) => r | _ => [] end.
Definition extra_vs : list (session QNum) := [("a"%string, (1%Z, [[qbox 1 0; qbox 1 1]; []])); ("b"%string, (1%Z, [[qbox 2 0; qbox 2 1]]))].
Definition single_v : session QNum := ("a"%string, (2%Z, [[qbox 1 0]; []])).
Definition same_vs : list (session QNum) :=
  [("train/MOT17-02"%string, (1%Z, [[qbox 1 0; qbox 1 1]])); ("test/MOT17-02"%string, (1%Z, [[qbox 2 0; qbox 2 1]]))].
Lemma extra_update : exists (vs : list (session QNum)) s,
  sessions vs ac_new = (s, Ret tt) /\
  map (fun v => (fst v, fst (snd v))) vs = [("a", 1%Z); ("b", 1%Z)]%string /\
  length (snd (snd (nth 1 vs (EmptyString, (0%Z, []))))) = 1 /\
  exists rows, ac_evaluated s = Ret [("a", rows); ("b", rows)]%string /\
  Forall (fun r => mr_id r = Some 1) rows /\
  Forall (Forall (fun p => pr_id p = Some 2)) (snd (snd (nth 1 vs (EmptyString, (0%Z, []))))).
Proof.
  exists extra_vs, (run_all extra_vs). split; [vm_compute; reflexivity|]. split; [reflexivity|]. split; [reflexivity|].
  exists (first_rows extra_vs). split; [vm_compute; reflexivity|]. split; vm_compute; repeat constructor.
Qed.
Lemma single_box : exists (v : session QNum) s,
  fst (snd v) = Z.of_nat (length (snd (snd v))) /\ sessions [v] ac_new = (s, Ret tt) /\ ac_evaluated s = Raise EValueError.
Proof. exists single_v, (run_all [single_v]). split; [reflexivity|]. split; vm_compute; reflexivity. Qed.
Lemma same_name : exists (vs : list (session QNum)) s rows,
  map fst vs = ["train/MOT17-02"; "test/MOT17-02"]%string /\ sessions vs ac_new = (s, Ret tt) /\
  ac_evaluated s = Ret [("MOT17-02"%string, rows)] /\ Forall (fun r => mr_id r = Some 2) rows.
Proof.
  exists same_vs, (run_all same_vs), (first_rows same_vs). split; [reflexivity|]. split; [vm_compute; reflexivity|].
  split; [vm_compute; reflexivity|]. vm_compute; repeat constructor.
Qed.

(* ---- a text format for which the hypotheses on text hold: fractions ---- *)
Definition parse_Z (s : string) : option Z :=
  match s with
  | String "-" t => if isdigit t then Some (- int_of_digits t)%Z else None
  | _ => if isdigit s then Some (int_of_digits s) else None
  end.
Definition q_fmt (x : QNum) : string := (str_of_Z (Qnum x) ++ "/" ++ str_of_Z (Zpos (Qden x)))%string.
Definition q_parse (s : string) : option QNum :=
  match split_on "/" s with
  | [a] => option_map (fun z => nofQ (inject_Z z)) (parse_Z a)
  | [a; b] => match parse_Z a, parse_Z b with Some n, Some (Zpos d) => Some (n # d)%Q | _, _ => None end
  | _ => None
  end.
Lemma parse_Z_str z : parse_Z (str_of_Z z) = Some z.
Proof.
  destruct (Z_lt_le_dec z 0).
  - destruct (str_of_Z_nonneg (- z)) as [D E]; [lia|].
    assert (S : str_of_Z z = String "-" (str_of_Z (- z))).
    { unfold str_of_Z. destruct (Z.ltb_spec z 0); [|lia]. destruct (Z.ltb_spec (- z) 0); [lia|]. rewrite Z.abs_opp. reflexivity. }
    rewrite S. cbn [parse_Z]. rewrite D, E. f_equal. lia.
  - destruct (str_of_Z_nonneg z) as [D E]; [lia|]. unfold parse_Z. destruct (str_of_Z z) as [|c t] eqn:S; [discriminate|].
    destruct (Ascii.eqb_spec c "-"%char) as [->|NE]; [discriminate|].
    assert (G : (match String c t with String "-" t => if isdigit t then Some (- int_of_digits t)%Z else None | _ => if isdigit (String c t) then Some (int_of_digits (String c t)) else None end)
       = if isdigit (String c t) then Some (int_of_digits (String c t)) else None).
    { destruct c as [[] [] [] [] [] [] [] []]; try reflexivity. contradiction. }
    rewrite G, D, E. reflexivity.
Qed.
Lemma q_text_ok : text_ok (N := QNum) q_fmt q_parse (fun x => x).
Proof.
  assert (SL : forall z, str_mem "/" (str_of_Z z) = false) by (intros; apply str_of_Z_mem; [reflexivity|discriminate]).
  split.
  - intros [n d]. unfold q_parse, q_fmt. cbn [Qnum Qden append]. rewrite split_app, split_none by auto. rewrite !parse_Z_str. reflexivity.
  - intros z. unfold q_parse. rewrite split_none by auto. rewrite parse_Z_str. reflexivity.
  - intros a b. cbn. apply eq_true_iff_eq. rewrite Qeq_bool_iff, Z.eqb_eq. unfold inject_Z, Qeq. simpl. lia.
  - intros x. unfold q_fmt. rewrite !mem_app. split; rewrite !(fun c z A B => str_of_Z_mem c z A B) by (reflexivity || discriminate); reflexivity.
Qed.
(** The same for canonical fractions, which are a ring. *)
Definition qc_fmt (x : QcNum) : string := q_fmt (this x).
Definition qc_parse (s : string) : option QcNum := option_map Q2Qc (q_parse s).
Lemma qc_text_ok : text_ok (N := QcNum) qc_fmt qc_parse (fun x => x).
Proof.
  destruct q_text_ok as [A B C D]. split.
  - intros x. unfold qc_parse, qc_fmt. rewrite A. cbn. f_equal. apply Qc_is_canon. cbn. apply Qred_correct.
  - intros z. unfold qc_parse. rewrite B. reflexivity.
  - intros a b. rewrite <- C. apply eq_true_iff_eq. change (Qeq_bool (Qred (inject_Z a)) (Qred (inject_Z b)) = true <-> Qeq_bool (inject_Z a) (inject_Z b) = true). rewrite !Qeq_bool_iff, !Qred_correct. reflexivity.
  - intros x. apply D.
Qed.

(* ---- Accumulators that have not been started ---- *)
Lemma update_not_started (N : Num) (p : list (prediction (N := N))) : ac_update p ac_new = (ac_new, Raise EAttributeError).
Proof. reflexivity. Qed.
Lemma rows_keep (N : Num) k ps : forall s : accs (N := N), let s' := fst (ac_rows k ps s) in
  ac_matrixes s' = ac_matrixes s /\ ac_paths s' = ac_paths s /\ ac_left s' = ac_left s /\ ac_frame s' = ac_frame s.
Proof.
  induction ps as [|p ps IH]; intros s; cbn; [auto|]. destruct (box_of (pr_estimate p)) as [[[[l t] w] h]|e]; [|cbn; auto]. match goal with |- context [ac_rows k ps ?x] => pose proof (IH x) as X end. exact X.
Qed.
Lemma update_no_bar (N : Num) p (s : accs (N := N)) : ac_left s = None -> let r := ac_update p s in
  (exists e, snd r = Raise e) /\ ac_matrixes (fst r) = ac_matrixes s /\ ac_paths (fst r) = ac_paths s /\ ac_left (fst r) = None.
Proof.
  intros L r. unfold r, ac_update. destruct (ac_frame s) as [f|]; [|cbn; eauto]. pose proof (rows_keep N f p s) as K. cbv zeta in K.
  destruct (ac_rows f p s) as [s1 [u|e]]; cbn [fst snd] in *; destruct K as (A & B & C & _); rewrite ?C, L in *; cbn; eauto.
Qed.
Lemma failed_start (N : Num) path lines (ps : list (list (prediction (N := N)))) s e : ac_create path lines ac_new = (s, Raise e) ->
  let s' := fold_left (fun s p => fst (ac_update p s)) ps s in
  (forall p, exists e', snd (ac_update p s') = Raise e') /\ ac_matrixes s' = [] /\ ac_evaluated s' = Raise EIndexError.
Proof.
  intros E. assert (K : ac_matrixes s = [] /\ ac_paths s = [path] /\ ac_left s = None).
  { unfold ac_create in E. destruct (search lines "seqLength") as [[n|t]|x]; try discriminate; injection E as <- _; auto. }
  assert (G : forall s', ac_matrixes s' = [] /\ ac_paths s' = [path] /\ ac_left s' = None ->
    let s'' := fold_left (fun s p => fst (ac_update (N := N) p s)) ps s' in ac_matrixes s'' = [] /\ ac_paths s'' = [path] /\ ac_left s'' = None).
  { induction ps as [|p ps IH]; intros s' H; cbn; [exact H|]. apply IH. destruct H as (A & B & C). destruct (update_no_bar N p s' C) as (_ & D & F & H). rewrite D, F. auto. }
  specialize (G s K). cbv zeta in G. cbv zeta. set (s' := fold_left _ ps s) in *. destruct G as (A & B & C). split; [|split; [exact A|]].
  - intros p. apply (update_no_bar N p s' C).
  - unfold ac_evaluated. rewrite A, B. reflexivity.
Qed.
Lemma failed_later (N : Num) path lines (s s' : accs (N := N)) e n ps video : ac_create path lines s = (s', Raise e) -> ac_left s = Some n ->
  Forall2 (Forall2 shows_box) ps video -> length ps = S n -> length (concat video) <> 1 ->
  exists s'' m, updates ps s' = (s'', Ret tt) /\ ac_matrixes s'' = ac_matrixes s ++ [m] /\ load_motchallenge m (-1) = Ret (video_rows 1 video) /\
    ac_paths s'' = ac_paths s ++ [path].
Proof.
  intros E L F Hl Hc. assert (K : s' = MkAccs (ac_matrixes s) (ac_paths s ++ [path]) (Some 1%Z) PEmpty (ac_left s)).
  { unfold ac_create in E. destruct (search lines "seqLength") as [[k|t]|x]; try discriminate; injection E as <- _; reflexivity. }
  subst s'. eexists. exists (mat_of (raw_rows 1 video)). erewrite updates_spec with (rows := []) (f := 1%Z) (n := n); eauto; try reflexivity.
  cbn [ac_matrixes ac_paths app]. split; [reflexivity|]. split; [reflexivity|]. split; [|reflexivity].
  rewrite load_mat by (rewrite raw_length; exact Hc). rewrite raw_video. reflexivity.
Qed.

(** Vocabulary for C106: two programs whose filters and distances differ by small errors, as two implementations in
    floating point numbers, or one of them and exact arithmetic, do. *)
From Coq Require Import ZArith List Bool Arith.
From Verif Require Import Model.Num Model.Base Model.Matching Model.Filter Model.Tracker Spec.MatchingSpec Spec.CallSpec Spec.ExampleVideo Spec.UnitSpec
  Spec.OrderSpec.
Import ListNotations.
Local Open Scope nat_scope.

Section S.
Context {N : Num} {FO FO' : filter_ops N}.
(** Which stored distances, and which states of the two filters, are taken for each other. *)
Variable near : dval N -> dval N -> Prop.
Variable R : fstate FO -> fstate FO' -> Prop.

(** The two filters are given the same calls and stay related. *)
Record filters_follow : Prop := {
  ff_create : forall p, R (f_create FO p) (f_create FO' p);
  ff_predict : forall a b, R a b -> R (f_predict FO a) (f_predict FO' b);
  ff_update : forall a b z dim (now : list bool), let h := repeat_each dim (map (fun m : bool => if m then n1 else n0) now) in
    R a b -> R (f_update FO a z h) (f_update FO' b z h);
  ff_reset : forall a b dim dimz now once z, R a b ->
    R (f_set_x FO a (reset_first_detected dim dimz now once z (f_x FO a)))
      (f_set_x FO' b (reset_first_detected dim dimz now once z (f_x FO' b)))
}.

(** The same object, up to its filter and the two distances it remembers. *)
Record nearly_same (o : tobj FO) (o' : tobj FO') : Prop := {
  ns_conf : o_conf o' = o_conf o;
  ns_hit : o_hit o' = o_hit o;
  ns_reid : o_reid o' = o_reid o;
  ns_last_det : o_last_det o' = o_last_det o;
  ns_age : o_age o' = o_age o;
  ns_initializing : o_initializing o' = o_initializing o;
  ns_id : o_id o' = o_id o;
  ns_gid : o_gid o' = o_gid o;
  ns_once : o_once o' = o_once o;
  ns_point_hits : o_point_hits o' = o_point_hits o;
  ns_past : o_past o' = o_past o;
  ns_abs_to_rel : o_abs_to_rel o' = o_abs_to_rel o;
  ns_filter : R (o_filter o) (o_filter o');
  ns_last_distance : match o_last_distance o, o_last_distance o' with
                     | None, None => True | Some d, Some d' => near d d' | _, _ => False end
}.

(** What distance functions are given. *)
Definition view_near (v : oview FO) (v' : oview FO') : Prop :=
  nearly_same (v_obj v) (v_obj v') /\ v_last v' = v_last v /\ v_past v' = v_past v.
Definition cand_near (c : cview FO) (c' : cview FO') : Prop :=
  match c, c' with VDet d, VDet d' => d' = d | VObj v, VObj v' => view_near v v' | _, _ => False end.

(** Where the first distance function returns a value the second one returns one that is stored as a near number. *)
Definition values_near (rnd rnd' : dval N -> dval N) (f : cview FO -> oview FO -> result (dval N)) (f' : cview FO' -> oview FO' -> result (dval N)) : Prop :=
  forall c c' o o' d, cand_near c c' -> view_near o o' -> f c o = Ret d -> exists d', f' c' o' = Ret d' /\ near (rnd d) (rnd' d').
(** The same for vectorized distances, which are given the stacked coordinates of detections and estimates. *)
Definition coordinates {F : filter_ops N} (c : cview F) : list N :=
  match c with VDet d => flatten (d_points d) | VObj v => flatten (estimate (v_obj v)) end.
Definition matrices_near (rnd rnd' : dval N -> dval N) (f f' : list (list N) -> list (list N) -> result (list (list (dval N)))) : Prop :=
  forall cs cs' os os' ps qs D, Forall2 cand_near cs cs' -> Forall2 view_near os os' ->
    stack (map coordinates cs) = Ret ps -> stack (map (fun v => flatten (estimate (v_obj v))) os) = Ret qs -> f ps qs = Ret D ->
    exists ps' qs' D', stack (map coordinates cs') = Ret ps' /\ stack (map (fun v => flatten (estimate (v_obj v))) os') = Ret qs' /\
      f' ps' qs' = Ret D' /\ Forall2 (Forall2 near) (map (map rnd) D) (map (map rnd') D').

(** The two trackers: the same arguments, except the distance functions, which are near. *)
Record nearly_alike (c : tconf FO) (c' : tconf FO') : Prop := {
  na_distance : match tc_distance c, tc_distance c' with
                | ScalarDistance f, ScalarDistance f' => values_near (tc_rnd c) (tc_rnd c') f f'
                | VectorizedDistance f, VectorizedDistance f' => matrices_near (tc_rnd c) (tc_rnd c') f f'
                | _, _ => False
                end;
  na_reid : match tc_reid_distance c, tc_reid_distance c' with
            | None, None => True
            | Some f, Some f' => values_near (tc_rnd c) (tc_rnd c') f f'
            | _, _ => False
            end;
  na_thresholds : tc_threshold c' = tc_threshold c /\ tc_reid_threshold c' = tc_reid_threshold c;
  na_stops : can_stop (tc_rnd c) (tc_threshold c) /\ can_stop (tc_rnd c') (tc_threshold c) /\
             (tc_reid_distance c <> None -> can_stop (tc_rnd c) (tc_reid_threshold c) /\ can_stop (tc_rnd c') (tc_reid_threshold c));
  na_same : tc_hit_counter_max c' = tc_hit_counter_max c /\ tc_delay c' = tc_delay c /\ tc_pointwise_max c' = tc_pointwise_max c /\
            tc_det_thr c' = tc_det_thr c /\ tc_past_len c' = tc_past_len c /\ tc_reid_max c' = tc_reid_max c
}.

(** Two calls with the same effect: the same result and, up to filters and distances, the same objects. *)
Record same_frame (f : frame FO) (f' : frame FO') : Prop := {
  sf_out : f_out f' = f_out f;
  sf_tracked : s_tracked (f_post f') = s_tracked (f_post f);
  sf_total : total_object_count (f_post f') = total_object_count (f_post f);
  sf_global : s_gcount (f_post f') = s_gcount (f_post f);
  sf_objects : forall i, tracked (f_post f) i -> nearly_same (s_store (f_post f) i) (s_store (f_post f') i);
  sf_detections : forall r, s_heap (f_post f') r = s_heap (f_post f) r
}.
End S.

(** ** When a table of distances decides the matching *)
Section Decisions.
Context {N : Num}.
(** Whatever near numbers the second program stores, they are below the threshold where the first program's are, and
    numbers below the threshold are ordered in the same way. *)
Definition decisive (near : dval N -> dval N -> Prop) (thr : dval N) (M : matrix N) : Prop :=
  let cell i j := i < length M /\ j < ncols M in
  (forall i j x, cell i j -> near (entry M i j) x -> (dlt x thr <-> dlt (entry M i j) thr)) /\
  (forall i j i' j' x x', cell i j -> cell i' j' -> (i, j) <> (i', j') -> dlt (entry M i j) thr -> dlt (entry M i' j') thr ->
     near (entry M i j) x -> near (entry M i' j') x' -> (dlt x x' <-> dlt (entry M i j) (entry M i' j'))).

(** Errors up to [eps]. *)
Variable eps : N.
Definition within (x y : dval N) : Prop :=
  match x, y with DFin a, DFin b => ~ dlt (DFin (b + eps)%n) (DFin a) /\ ~ dlt (DFin (a + eps)%n) (DFin b) | _, _ => x = y end.
(** Finite numbers that are more than [by_] apart; infinite ones are no problem. *)
Definition apart (by_ : N) (x y : dval N) : Prop :=
  match x, y with DFin a, DFin b => dlt (DFin (a + by_)%n) (DFin b) \/ dlt (DFin (b + by_)%n) (DFin a) | _, _ => True end.
(** Nothing is within [eps] of the threshold, and no two distances below it are within 2 [eps] of each other. *)
Definition clear (thr : dval N) (M : matrix N) : Prop :=
  let cell i j := i < length M /\ j < ncols M in
  (forall i j, cell i j -> apart eps (entry M i j) thr) /\
  (forall i j i' j', cell i j -> cell i' j' -> (i, j) <> (i', j') -> dlt (entry M i j) thr -> dlt (entry M i' j') thr ->
     apart (eps + eps)%n (entry M i j) (entry M i' j')).
End Decisions.

(** All tables of a call of [update]. *)
Definition each_table {N : Num} {FO : filter_ops N} (P : dval N -> matrix N -> Prop) (c : tconf FO) (f : frame FO) : Prop :=
  forall thr M, In (thr, M) (tables c (f_dets f) (f_period f) (f_ct f) (f_pre f)) -> P thr M.

(** A distance function that only looks at points, labels and the like: not at the distances an object remembers. *)
Definition same_values {N : Num} {FO : filter_ops N} (near : dval N -> dval N -> Prop) (f : cview FO -> oview FO -> result (dval N)) : Prop :=
  forall c c' o o', cand_near near eq c c' -> view_near near eq o o' -> f c' o' = f c o.

(** The same tracker with distances kept in another format, and a table whose relevant comparisons that format keeps. *)
Definition with_rnd {N : Num} {FO : filter_ops N} (c : tconf FO) (rnd : dval N -> dval N) : tconf FO :=
  MkTconf (tc_distance c) (tc_threshold c) (tc_hit_counter_max c) (tc_delay c) (tc_pointwise_max c) (tc_det_thr c) (tc_past_len c)
    (tc_reid_distance c) (tc_reid_threshold c) (tc_reid_max c) rnd.
Definition order_kept {N : Num} (rnd : dval N -> dval N) (thr : dval N) (M : matrix N) : Prop :=
  let cell i j := i < length M /\ j < ncols M in
  (forall i j, cell i j -> (dlt (rnd (entry M i j)) thr <-> dlt (entry M i j) thr)) /\
  (forall i j i' j', cell i j -> cell i' j' -> (i, j) <> (i', j') -> dlt (entry M i j) thr -> dlt (entry M i' j') thr ->
     (dlt (rnd (entry M i j)) (rnd (entry M i' j')) <-> dlt (entry M i j) (entry M i' j'))).

(** Decision procedure for examples. *)
Definition cells {N : Num} (M : matrix N) : list (nat * nat) := list_prod (seq 0 (length M)) (seq 0 (ncols M)).
Definition apartb {N : Num} (by_ : N) (x y : dval N) : bool :=
  match x, y with DFin a, DFin b => dltb (DFin (a + by_)%n) (DFin b) || dltb (DFin (b + by_)%n) (DFin a) | _, _ => true end.
Definition clearb {N : Num} (eps : N) (thr : dval N) (M : matrix N) : bool :=
  forallb (fun x => apartb eps (entry M (fst x) (snd x)) thr) (cells M) &&
  forallb (fun x => forallb (fun y => (Nat.eqb (fst x) (fst y) && Nat.eqb (snd x) (snd y)) ||
      negb (dltb (entry M (fst x) (snd x)) thr) || negb (dltb (entry M (fst y) (snd y)) thr) ||
      apartb (eps + eps)%n (entry M (fst x) (snd x)) (entry M (fst y) (snd y))) (cells M)) (cells M).
Lemma apartb_ok {N : Num} (e : N) x y : apartb e x y = true -> apart e x y.
Proof. destruct x, y; cbn; auto. intros H. apply orb_true_iff in H. exact H. Qed.
Lemma clearb_ok {N : Num} (eps : N) thr M : clearb eps thr M = true -> clear eps thr M.
Proof.
  unfold clearb. intros H. apply andb_true_iff in H as [A B]. rewrite forallb_forall in A, B.
  assert (C : forall i j, i < length M /\ j < ncols M -> In (i, j) (cells M)) by (intros i j [X Y]; apply in_prod; apply in_seq; split; auto with arith).
  split.
  - intros i j H. apply apartb_ok, (A _ (C i j H)).
  - intros i j i' j' H H' Hne L L'. specialize (B _ (C i j H)). rewrite forallb_forall in B. specialize (B _ (C i' j' H')). cbn [fst snd] in B.
    unfold dlt in L, L'. rewrite L, L' in B. cbn [negb] in B. rewrite !orb_false_r in B. apply orb_true_iff in B as [B|B]; [|apply apartb_ok, B].
    apply andb_true_iff in B as [X Y]. apply Nat.eqb_eq in X, Y. subst. elim Hne. reflexivity.
Qed.
Definition order_keptb {N : Num} (rnd : dval N -> dval N) (thr : dval N) (M : matrix N) : bool :=
  let e x := entry M (fst x) (snd x) in
  forallb (fun x => eqb (dltb (rnd (e x)) thr) (dltb (e x) thr)) (cells M) &&
  forallb (fun x => forallb (fun y => eqb (dltb (rnd (e x)) (rnd (e y))) (dltb (e x) (e y))) (cells M)) (cells M).
Lemma order_keptb_ok {N : Num} (rnd : dval N -> dval N) thr (M : matrix N) : order_keptb rnd thr M = true -> order_kept rnd thr M.
Proof.
  unfold order_keptb. intros H. apply andb_true_iff in H as [A B]. rewrite forallb_forall in A, B.
  assert (C : forall i j, i < length M /\ j < ncols M -> In (i, j) (cells M)) by (intros i j [X Y]; apply in_prod; apply in_seq; split; auto with arith).
  split.
  - intros i j H. specialize (A _ (C i j H)). apply eqb_prop in A. cbn [fst snd] in A. unfold dlt. rewrite A. reflexivity.
  - intros i j i' j' H H' _ _ _. specialize (B _ (C i j H)). rewrite forallb_forall in B. specialize (B _ (C i' j' H')). apply eqb_prop in B. cbn [fst snd] in B.
    unfold dlt. rewrite B. reflexivity.
Qed.

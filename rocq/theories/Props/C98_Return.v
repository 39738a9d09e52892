(** C98: a thing that comes back gets its old object back. *)
From Coq Require Import ZArith QArith Bool List Arith Lia.
From Verif Require Import Model.Num Model.Base Model.Matching Model.Filter Model.Float32 Model.Tracker.
From Verif Require Import Spec.MatchingSpec Spec.ExampleTracker Spec.ExampleVideo Spec.CallSpec Spec.PhasesSpec Spec.GroundTruthSpec Spec.ReturnSpec.
From Verif Require Import Proofs.NumLaws Proofs.Float32Proofs Proofs.Effect Proofs.GroundTruth Proofs.ReturnProofs Proofs.ReturnEmbeddings.
Import ListNotations.
Local Open Scope nat_scope.

(** If the distances tell the things apart and the re-identification distance recognizes them, every call associates rightly. *)
Theorem C98_right_return {N : Num} (laws : NumLaws N) (FO : filter_ops N) (thing : Type) (who : nat -> thing) (c : tconf FO) f s fs :
  rnd_ok (tc_rnd c) -> tracker_state c s -> tc_distance c = ScalarDistance f -> age_blind f ->
  (forall g, tc_reid_distance c = Some g -> reid_blind g) -> video c s fs -> one_each thing who c s ->
  (forall fr, In fr fs -> unambiguous thing who c f fr) -> (forall fr, In fr fs -> recognized thing who c fr) ->
  forall fr, In fr fs -> right_return thing who c fr.
Proof. exact (video_return laws thing who c f s fs). Qed.
Print Assumptions C98_right_return.

(** An object, also one that is re-identified, follows the same thing for the whole video. *)
Theorem C98_no_identity_switch {N : Num} (laws : NumLaws N) (FO : filter_ops N) (thing : Type) (who : nat -> thing) (c : tconf FO) f s fs i :
  rnd_ok (tc_rnd c) -> tracker_state c s -> tc_distance c = ScalarDistance f -> age_blind f ->
  (forall g, tc_reid_distance c = Some g -> reid_blind g) -> video c s fs -> one_each thing who c s ->
  (forall fr, In fr fs -> unambiguous thing who c f fr) -> (forall fr, In fr fs -> recognized thing who c fr) -> known s i ->
  forall fr, In fr fs -> who (last_det (f_post fr) i) = who (last_det s i).
Proof. exact (video_same_thing laws thing who c f s fs i). Qed.
Print Assumptions C98_no_identity_switch.

(** A re-identification distance that compares embeddings recognizes the things if the embeddings tell them apart. *)
Theorem C98_embeddings {N : Num} (laws : NumLaws N) (FO : filter_ops N) (thing : Type) (who : nat -> thing) (c : tconf FO) f g lab emb e s fs :
  rnd_ok (tc_rnd c) -> tc_distance c = ScalarDistance f -> age_blind f -> tc_reid_distance c = Some g -> compares_embeddings e g ->
  tracker_state c s -> s_icount s = 0 -> video c s fs -> (forall fr, In fr fs -> unambiguous thing who c f fr) ->
  embedded lab emb [] fs -> telling who lab emb e (tc_rnd c) (tc_reid_threshold c) (all_dets fs) ->
  forall fr, In fr fs -> right_return thing who c fr.
Proof. exact (fun H1 H2 H3 H4 H5 => video_embeddings laws thing who c f g lab emb e H1 H2 H3 H4 H5 s fs). Qed.
Print Assumptions C98_embeddings.

(** Two detections in successive calls bring the retired object of the thing back: the second call returns it, with its
    ids, and the object that was made for the first detection is gone. *)
Theorem C98_comes_back {N : Num} (laws : NumLaws N) (FO : filter_ops N) (thing : Type) (who : nat -> thing) (c : tconf FO) f s f1 f2 i r1 r2 :
  rnd_ok (tc_rnd c) -> tracker_state c s -> tc_distance c = ScalarDistance f -> age_blind f ->
  tc_reid_distance c <> None -> (forall g, tc_reid_distance c = Some g -> reid_blind g) -> video c s [f1; f2] -> one_each thing who c s ->
  (forall fr, In fr [f1; f2] -> unambiguous thing who c f fr) -> (forall fr, In fr [f1; f2] -> recognized thing who c fr) ->
  (0 <= f_period f1 <= tc_delay c)%Z -> (0 <= oc_initial_period (o_conf (s_store s i)))%Z ->
  o_initializing (s_store s i) = false -> retired c s i -> retired c (f_post f1) i ->
  (forall o, retired c s o -> who (last_det s o) = who (last_det s i) -> o = i) ->
  (forall o, matchable c s o -> who (last_det s o) <> who (last_det s i)) ->
  In r1 (f_dets f1) -> who r1 = who (last_det s i) -> In r2 (f_dets f2) -> who r2 = who (last_det s i) ->
  In i (f_out f2) /\ last_det (f_post f2) i = r2 /\ o_id (s_store (f_post f2) i) = o_id (s_store s i) /\ o_gid (s_store (f_post f2) i) = o_gid (s_store s i) /\
  forall j, s_icount s < j <= s_icount (f_post f1) -> last_det (f_post f1) j = r1 -> ~ tracked (f_post f2) j.
Proof. exact (comes_back laws thing who c f s f1 f2 i r1 r2). Qed.
Print Assumptions C98_comes_back.

(** If the period is always larger than initialization_delay, in particular with initialization_delay 0, no object that
    cannot be matched any more is ever returned again or gets another detection, whatever the distances. *)
Theorem C98_no_delay_refuted {N : Num} (laws : NumLaws N) (FO : filter_ops N) (c : tconf FO) s fs i :
  rnd_ok (tc_rnd c) -> tracker_state c s -> video c s fs -> (forall fr, In fr fs -> (tc_delay c < f_period fr)%Z) ->
  (forall i, tracked s i -> o_initializing (s_store s i) = false) -> known s i -> ~ matchable c s i ->
  forall fr, In fr fs -> last_det (f_post fr) i = last_det s i /\ ~ In i (f_out fr).
Proof. exact (video_no_delay laws c s fs i). Qed.
Print Assumptions C98_no_delay_refuted.

(* ---- two things with embeddings; thing 1 leaves and comes back at another place; detection r shows thing r / 10 ---- *)
Definition c98_who (r : nat) : nat := r / 10.
Definition c98_emb (r : nat) : list QNum := [(inject_Z (Z.of_nat (r / 10)) : QNum)].
Definition c98_e (a b : list QNum) : dval QNum := DFin (ex_abs (Qred (Qminus (hd 0%Q a) (hd 0%Q b))) : QNum).
Definition c98_reid (x : cview exF) (o : oview exF) : result (dval QNum) :=
  match x with VObj j => Ret (c98_e (d_data (v_last j)) (d_data (v_last o))) | VDet _ => Raise EAttributeError end.
Definition c98_conf (delay : Z) : tconf exF :=
  MkTconf (ScalarDistance ex_distance) (DFin (5%Q : QNum)) 3 delay 3 (0%Q : QNum) 2 (Some c98_reid) (DFin ((1 # 2)%Q : QNum)) (Some 4%Z) round32.
Definition c98_in (l : list (nat * Q)) : input QNum :=
  MkInput (map (fun x => (fst x, new_detection [[(snd x : QNum)]] None (c98_emb (fst x)) LNone)) l) (map fst l) 1 None.
Definition c98_ins : list (input QNum) :=
  [c98_in [(10, 0%Q); (20, 100%Q)]; c98_in [(21, 101%Q); (11, 1%Q)]; c98_in [(12, 2%Q); (22, 102%Q)]; c98_in [(23, 103%Q)]; c98_in [(24, 104%Q)];
   c98_in [(25, 105%Q)]; c98_in [(26, 106%Q)]; c98_in [(27, 107%Q)]; c98_in [(13, 50%Q); (28, 108%Q)]; c98_in [(29, 109%Q); (14, 51%Q)]; c98_in [(15, 52%Q)]].
Definition c98_fs := frames (c98_conf 1) ex_start c98_ins.

Example C98_example_blind : age_blind ex_distance.
Proof. intros d d' o o' (_ & _ & _ & _ & E) Eo _ _. unfold ex_distance. cbn. rewrite E, Eo. reflexivity. Qed.
Example C98_example_compares : compares_embeddings c98_e c98_reid.
Proof. intros j o. reflexivity. Qed.
Example C98_example_video : video (c98_conf 1) ex_start c98_fs.
Proof. apply frames_video. vm_compute. reflexivity. Qed.
Example C98_example_unambiguous : forall fr, In fr c98_fs -> unambiguous nat c98_who (c98_conf 1) ex_distance fr.
Proof.
  assert (E : forallb (unambiguousb c98_who (c98_conf 1) ex_distance) c98_fs = true) by (vm_compute; reflexivity).
  rewrite forallb_forall in E. intros fr Hf. apply unambiguousb_ok, E, Hf.
Qed.
(** Decision procedure for [embedded] when there are no labels. *)
Fixpoint c98_embeddedb (seen : list nat) (fs : list (CallSpec.frame exF)) : bool :=
  match fs with
  | [] => true
  | fr :: fs' =>
    forallb (fun r => match d_label (s_heap (f_pre fr) r), d_data (s_heap (f_pre fr) r) with
                      | LNone, [q] => (Qnum q =? Z.of_nat (r / 10))%Z && Pos.eqb (Qden q) 1 | _, _ => false end) (f_dets fr ++ seen) &&
    c98_embeddedb (f_dets fr ++ seen) fs'
  end.
Lemma c98_embeddedb_ok fs : forall seen, c98_embeddedb seen fs = true -> embedded (fun _ => LNone) c98_emb seen fs.
Proof.
  induction fs as [|fr fs IH]; cbn; intros seen H; [exact I|]. apply andb_prop in H as [A B]. split; [|apply IH, B].
  rewrite forallb_forall in A. intros r Hr. apply A in Hr. destruct (d_label _); try discriminate. destruct (d_data _) as [|[n d] [|? ?]]; try discriminate.
  apply andb_prop in Hr as [X Y]. apply Z.eqb_eq in X. cbn in X, Y. destruct d; try discriminate. subst. auto.
Qed.
Example C98_example_embedded : embedded (fun _ => LNone) c98_emb [] c98_fs.
Proof. apply c98_embeddedb_ok. vm_compute. reflexivity. Qed.
Example C98_example_telling : telling c98_who (fun _ => LNone) c98_emb c98_e round32 (DFin ((1 # 2)%Q : QNum)) (all_dets c98_fs).
Proof.
  assert (E : forallb (fun r => forallb (fun r' => Bool.eqb (dltb (round32 (c98_e (c98_emb r) (c98_emb r'))) (DFin ((1 # 2)%Q : QNum))) (c98_who r =? c98_who r')) (all_dets c98_fs)) (all_dets c98_fs) = true)
    by (vm_compute; reflexivity).
  rewrite forallb_forall in E. intros r r' Hr Hr'. specialize (E r Hr). rewrite forallb_forall in E. specialize (E r' Hr'). apply eqb_prop in E.
  unfold dlt. rewrite E, Nat.eqb_eq. tauto.
Qed.
Example C98_example_right : forall fr, In fr c98_fs -> right_return nat c98_who (c98_conf 1) fr.
Proof.
  apply (C98_embeddings QNum_laws exF nat c98_who (c98_conf 1) ex_distance c98_reid (fun _ => LNone) c98_emb c98_e ex_start c98_fs round32_not_nan eq_refl
    C98_example_blind eq_refl C98_example_compares (ex_start_state _) eq_refl C98_example_video C98_example_unambiguous C98_example_embedded C98_example_telling).
Qed.
(** Object 1 is retired after the seventh call; detection 13 makes object 3, detection 14 brings object 1 back. *)
Example C98_example : map (fun fr => (f_out fr, map (fun i => (i, last_det (f_post fr) i)) (s_tracked (f_post fr)))) c98_fs =
  [([], [(1, 10); (2, 20)]); ([1; 2], [(1, 11); (2, 21)]); ([1; 2], [(1, 12); (2, 22)]); ([1; 2], [(1, 12); (2, 23)]); ([1; 2], [(1, 12); (2, 24)]);
   ([1; 2], [(1, 12); (2, 25)]); ([2], [(1, 12); (2, 26)]); ([2], [(1, 12); (2, 27)]); ([2], [(1, 12); (2, 28); (3, 13)]);
   ([1; 2], [(1, 14); (2, 29)]); ([1; 2], [(1, 15); (2, 29)])].
Proof. vm_compute. reflexivity. Qed.
Example C98_example_recognized : forall fr, In fr c98_fs -> recognized nat c98_who (c98_conf 1) fr.
Proof.
  assert (E : forallb (recognizedb c98_who (c98_conf 1) c98_reid) c98_fs = true) by (vm_compute; reflexivity).
  rewrite forallb_forall in E. intros fr Hf. apply (recognizedb_ok _ _ c98_reid); [reflexivity|apply E, Hf].
Qed.
Example C98_example_reid_blind : forall g, tc_reid_distance (c98_conf 1) = Some g -> reid_blind g.
Proof. intros g E. injection E as <-. exact (embeddings_blind c98_e c98_reid C98_example_compares). Qed.

(** The two calls in which thing 1 comes back meet the hypotheses of C98_comes_back. *)
Definition c98_s8 : st exF := last_state ex_start (frames (c98_conf 1) ex_start (firstn 8 c98_ins)).
Definition c98_two : list (CallSpec.frame exF) := frames (c98_conf 1) c98_s8 [nth 8 c98_ins nothing; nth 9 c98_ins nothing].
Definition c98_dummy : CallSpec.frame exF := MkFrame [] 0 None ex_start ex_start [].
Example C98_example_back :
  let f1 := nth 0 c98_two c98_dummy in let f2 := nth 1 c98_two c98_dummy in
  video (c98_conf 1) c98_s8 [f1; f2] /\ tracker_state (c98_conf 1) c98_s8 /\ one_each nat c98_who (c98_conf 1) c98_s8 /\
  (forall fr, In fr [f1; f2] -> unambiguous nat c98_who (c98_conf 1) ex_distance fr) /\ (forall fr, In fr [f1; f2] -> recognized nat c98_who (c98_conf 1) fr) /\
  f_period f1 = 1%Z /\ oc_initial_period (o_conf (s_store c98_s8 1)) = 1%Z /\ o_initializing (s_store c98_s8 1) = false /\
  retired (c98_conf 1) c98_s8 1 /\ retired (c98_conf 1) (f_post f1) 1 /\
  (forall o, retired (c98_conf 1) c98_s8 o -> c98_who (last_det c98_s8 o) = c98_who (last_det c98_s8 1) -> o = 1) /\
  (forall o, matchable (c98_conf 1) c98_s8 o -> c98_who (last_det c98_s8 o) <> c98_who (last_det c98_s8 1)) /\
  In 13 (f_dets f1) /\ In 14 (f_dets f2) /\ last_det c98_s8 1 = 12.
Proof.
  assert (L : length c98_two = 2) by (vm_compute; reflexivity).
  assert (E : c98_two = [nth 0 c98_two c98_dummy; nth 1 c98_two c98_dummy]) by (destruct c98_two as [|a [|b [|x l]]]; try discriminate L; reflexivity).
  assert (Tr : s_tracked c98_s8 = [1; 2]) by (vm_compute; reflexivity).
  cbv zeta. rewrite <- E. clear L E. split; [apply frames_video; vm_compute; reflexivity|].
  split; [apply last_state_ok; [constructor|apply frames_video; vm_compute; reflexivity]|].
  split. { intros i j (X & _) (Y & _). unfold tracked in X, Y. rewrite Tr in X, Y. destruct X as [<-|[<-|[]]], Y as [<-|[<-|[]]]; intros Q; auto; vm_compute in Q; discriminate Q. }
  split. { assert (B : forallb (unambiguousb c98_who (c98_conf 1) ex_distance) c98_two = true) by (vm_compute; reflexivity).
    rewrite forallb_forall in B. intros fr Hf. apply unambiguousb_ok, B, Hf. }
  split. { assert (B : forallb (recognizedb c98_who (c98_conf 1) c98_reid) c98_two = true) by (vm_compute; reflexivity).
    rewrite forallb_forall in B. intros fr Hf. apply (recognizedb_ok _ _ c98_reid); [reflexivity|apply B, Hf]. }
  split; [vm_compute; reflexivity|]. split; [vm_compute; reflexivity|]. split; [vm_compute; reflexivity|].
  split. { split; [unfold tracked; rewrite Tr; left; reflexivity|]. vm_compute. split; [reflexivity|]. split; [intros Q; discriminate Q|intros Q; discriminate Q]. }
  split. { assert (T1 : s_tracked (f_post (nth 0 c98_two c98_dummy)) = [1; 2; 3]) by (vm_compute; reflexivity). split; [unfold tracked; rewrite T1; left; reflexivity|]. vm_compute. split; [reflexivity|]. split; [intros Q; discriminate Q|intros Q; discriminate Q]. }
  split. { intros o (X & Y & _). unfold tracked in X. rewrite Tr in X. destruct X as [<-|[<-|[]]]; [auto|]. vm_compute in Y. discriminate Y. }
  split. { intros o (X & Y & _) Q. unfold tracked in X. rewrite Tr in X. destruct X as [<-|[<-|[]]]; [vm_compute in Y; exact (False_ind _ (Y eq_refl))|vm_compute in Q; discriminate Q]. }
  split; [vm_compute; auto|]. split; [vm_compute; auto|]. vm_compute. reflexivity.
Qed.

(** The same video with initialization_delay 0: thing 1 gets object 3 for good. *)
Definition c98_fs0 := frames (c98_conf 0) ex_start c98_ins.
Example C98_example_no_delay : map (fun fr => (f_out fr, map (fun i => (i, last_det (f_post fr) i)) (s_tracked (f_post fr)))) (skipn 7 c98_fs0) =
  [([2], [(1, 12); (2, 27)]); ([2; 3], [(1, 12); (2, 28); (3, 13)]); ([2; 3], [(1, 12); (2, 29); (3, 14)]); ([2; 3], [(1, 12); (2, 29); (3, 15)])].
Proof. vm_compute. reflexivity. Qed.
Definition c98_t7 : st exF := last_state ex_start (frames (c98_conf 0) ex_start (firstn 7 c98_ins)).
Definition c98_rest0 := frames (c98_conf 0) c98_t7 (skipn 7 c98_ins).
Example C98_example_no_delay_hyps : tracker_state (c98_conf 0) c98_t7 /\ video (c98_conf 0) c98_t7 c98_rest0 /\ length c98_rest0 = 4 /\
  (forall fr, In fr c98_rest0 -> (tc_delay (c98_conf 0) < f_period fr)%Z) /\ (forall i, tracked c98_t7 i -> o_initializing (s_store c98_t7 i) = false) /\
  known c98_t7 1 /\ ~ matchable (c98_conf 0) c98_t7 1.
Proof.
  split; [apply last_state_ok; [constructor|apply frames_video; vm_compute; reflexivity]|].
  split; [apply frames_video; vm_compute; reflexivity|]. split; [vm_compute; reflexivity|].
  split. { assert (B : forallb (fun fr => (0 <? f_period fr)%Z) c98_rest0 = true) by (vm_compute; reflexivity). rewrite forallb_forall in B. intros fr Hf. apply B, Z.ltb_lt in Hf. exact Hf. }
  split. { assert (Tr : s_tracked c98_t7 = [1; 2]) by (vm_compute; reflexivity). intros i X. unfold tracked in X. rewrite Tr in X. destruct X as [<-|[<-|[]]]; vm_compute; reflexivity. }
  split; [vm_compute; lia|]. intros (_ & X & _). vm_compute in X. apply X. reflexivity.
Qed.

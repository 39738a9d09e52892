(** The distances of the library are computed pair by pair.  Used for C92. *)
From Coq Require Import ZArith Reals Bool Arith String List Lia Permutation.
From Verif Require Import Model.Num Model.Base Model.Matching Model.Filter Model.Tracker Model.Distances Spec.LabelSpec Spec.OrderSpec.
Import ListNotations.

Section I.
Context {N : Num}.
Lemma forallb_all {A} (f : A -> bool) l : forallb f l = true <-> Forall (fun x => f x = true) l.
Proof. rewrite forallb_forall, Forall_forall. reflexivity. Qed.

Lemma iou_cell_by_cell : cell_by_cell (@iou N).
Proof.
  exists (fun c o => if Nat.eqb (List.length c) 4 && Nat.eqb (List.length o) 4 then Some (iou_entry c o) else None).
  intros cs os D Hc Ho. unfold iou. split.
  - destruct (forallb (fun c => _) cs) eqn:E1; [|discriminate]. destruct (forallb (fun o => Nat.leb 4 _) os); [|discriminate]. destruct (forallb (fun o => Nat.eqb _ 4) os) eqn:E2; [|discriminate].
    intros E. injection E as <-. rewrite forallb_all in E1, E2. clear Hc Ho. induction E1 as [|c cs Hc E1 IH]; [constructor|]. constructor; [|exact IH].
    rewrite Hc. clear - E2. induction E2 as [|o os Ho E2 IH]; constructor; auto. rewrite Ho. reflexivity.
  - intros F. assert (A : Forall (fun c => Nat.eqb (List.length c) 4 = true) cs /\ Forall (fun o => Nat.eqb (List.length o) 4 = true) os).
    { destruct F as [|c row cs D F1 F]; [elim Hc; reflexivity|]. split.
      - constructor.
        + destruct F1 as [|o d os row F1 _]; [elim Ho; reflexivity|]. destruct (Nat.eqb (List.length c) 4); [reflexivity|discriminate].
        + clear - F Ho. induction F as [|c row cs D F1 F IH]; constructor; auto. destruct F1 as [|o d os row F1 _]; [elim Ho; reflexivity|]. destruct (Nat.eqb (List.length c) 4); [reflexivity|discriminate].
      - clear - F1. induction F1 as [|o d os row F1 F IH]; constructor; auto. destruct (Nat.eqb (List.length o) 4); [reflexivity|]. rewrite andb_false_r in F1. discriminate. }
    destruct A as [A1 A2]. pose proof A1 as B1. pose proof A2 as B2. rewrite <- forallb_all in B1, B2. rewrite B1, B2.
    replace (forallb (fun o => Nat.leb 4 (List.length o)) os) with true.
    + f_equal. clear - F A1 A2. induction F as [|c row cs D F1 F IH]; [reflexivity|]. inversion A1 as [|? ? Hc A1']; subst. cbn. f_equal; [|apply IH, A1']. rewrite Hc in F1.
      clear - F1 A2. induction F1 as [|o d os row F1 F IH]; [reflexivity|]. inversion A2 as [|? ? Ho A2']; subst. cbn. rewrite Ho in F1. injection F1 as <-. f_equal. apply IH, A2'.
    + symmetry. apply forallb_all. eapply Forall_impl; [|exact A2]. intros o Hl. apply Nat.eqb_eq in Hl. rewrite Hl. reflexivity.
Qed.
End I.

Section D.
Context {FO : filter_ops RNum}.
Lemma on_points_blind f : number_blind (FO:=FO) (on_points f).
Proof. intros [d|o'] o; reflexivity. Qed.
Lemma voting_blind a b : number_blind (FO:=FO) (keypoints_voting_distance a b).
Proof. intros [d|o'] o; reflexivity. Qed.
Lemma normalized_blind a b : number_blind (FO:=FO) (normalized_mean_euclidean_distance a b).
Proof. apply on_points_blind. Qed.
Lemma by_name_pairwise cdist name (d : distance FO) : get_distance_by_name cdist name = Ret d -> ~ In name scipy_functions -> pairwise d.
Proof.
  unfold get_distance_by_name. intros E Hn.
  destruct (lookup name scalar_functions) as [f|] eqn:E1.
  - injection E as <-. unfold scalar_functions, lookup in E1.
    repeat match type of E1 with (if ?b then _ else _) = _ => destruct b; [injection E1 as <-; apply on_points_blind|] end. discriminate.
  - destruct (existsb (String.eqb name) scipy_functions) eqn:E2.
    + apply existsb_exists in E2 as (x & Hx & Ex). apply String.eqb_eq in Ex. subst x. contradiction.
    + destruct (lookup name vectorized_functions) as [f|] eqn:E3; [|discriminate]. injection E as <-. unfold vectorized_functions, lookup in E3.
      repeat match type of E3 with (if ?b then _ else _) = _ => destruct b; [injection E3 as <-; exact iou_cell_by_cell|] end. discriminate.
Qed.
End D.

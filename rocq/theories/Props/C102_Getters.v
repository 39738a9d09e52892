(** C102: what one call of a transformation getter returns and remembers. *)
From Coq Require Import ZArith QArith Reals Lra Bool Arith List.
From Verif Require Import Model.Num Model.Base Model.Tracker Model.CameraMotion
  Spec.BuiltinSpec Spec.CameraSpec Spec.ExampleCamera Spec.GetterSpec Proofs.GetterProofs.
Import ListNotations.
Local Open Scope nat_scope.

(** Translations: the most frequent binned flow, the smallest of several, is added to what was accumulated; a new
    reference is asked for, and the sum kept, exactly if fewer points than wanted agree. *)
Theorem C102_translation (around : R -> R) (g : tgetter RNum) (curr prev : points RNum) :
  length curr = length prev -> planar curr -> planar prev -> prev <> [] ->
  exists g' flag v, tg_call (N := RNum) around g (Some curr) (Some prev) = (g', Ret (flag, Some v)) /\ translation_call around g g' curr prev flag v.
Proof. exact (translation_law around g curr prev). Qed.
Print Assumptions C102_translation.

(** Without arrays or without points the call raises and changes nothing. *)
Theorem C102_translation_fails (around : R -> R) (g : tgetter RNum) curr prev :
  ((curr = None \/ prev = None) -> tg_call (N := RNum) around g curr prev = (g, Raise ETypeError)) /\
  (curr = Some [] -> prev = Some [] -> tg_call (N := RNum) around g curr prev = (g, Raise EValueError)).
Proof. exact (translation_fails around g curr prev). Qed.
Print Assumptions C102_translation_fails.

(** Homographies: with four points the fitted matrix is composed with the accumulated one. *)
Theorem C102_homography find (g : hgetter RNum) curr prev m used :
  ~ low (Some curr) -> ~ low (Some prev) -> find prev curr = Ret (Some m, Some used) ->
  exists m' flag r, composed (hg_data g) m m' /\ too_few used (hg_threshold g) flag /\
    hg_call find g (Some curr) (Some prev) = (MkHG (hg_threshold g) (if flag then Some m' else hg_data g), r) /\
    (invertible m' -> exists h, homography_new m' = Ret h /\ r = Ret (flag, Some h)) /\
    (~ invertible m' -> r = Raise ELinAlgError).
Proof. exact (homography_fit find g curr prev m used). Qed.
Print Assumptions C102_homography.

(** With fewer than four points the accumulated homography is returned, and a new reference is asked for. *)
Theorem C102_homography_low find (g : hgetter RNum) curr prev : low curr \/ low prev ->
  (hg_data g = None -> hg_call find g curr prev = (g, Ret (true, None))) /\
  (forall m h, hg_data g = Some m -> homography_new m = Ret h -> hg_call find g curr prev = (g, Ret (true, Some h))).
Proof. exact (homography_low find g curr prev). Qed.
Print Assumptions C102_homography_low.

(** Without a fit the call raises; a fit of no matrix also makes the getter forget what it accumulated, when a new
    reference would be asked for. *)
Theorem C102_homography_fails find (g : hgetter RNum) curr prev : ~ low (Some curr) -> ~ low (Some prev) ->
  (forall e, find prev curr = Raise e -> hg_call find g (Some curr) (Some prev) = (g, Raise e)) /\
  (forall m, find prev curr = Ret (m, None) -> hg_call find g (Some curr) (Some prev) = (g, Raise ETypeError)) /\
  (forall used, find prev curr = Ret (None, Some used) -> exists flag, too_few used (hg_threshold g) flag /\
     hg_call find g (Some curr) (Some prev) = (MkHG (hg_threshold g) (if flag then None else hg_data g), Raise ELinAlgError)).
Proof. exact (homography_no_fit find g curr prev). Qed.
Print Assumptions C102_homography_fails.

(* ---- concrete cases ---- *)
(** Flows (1, 0), (0, 1), (0, 1), (1, 0), (5, 5): (0, 1) wins the tie and is added to (10, 20); 2/5 < 9/10. *)
Definition ex102_prev : points QNum := [[0; 0]; [0; 0]; [3; 3]; [4; 4]; [5; 5]]%Q.
Definition ex102_curr : points QNum := [[1; 0]; [0; 1]; [3; 4]; [5; 4]; [10; 10]]%Q.
Example ex102_translation : tg_call (N := QNum) (fun x => Qred x) (@MkTG QNum 1%Q (9 # 10)%Q (Some [10; 20]%Q)) (Some ex102_curr) (Some ex102_prev) =
  (@MkTG QNum 1%Q (9 # 10)%Q (Some [10; 21]%Q), Ret (true, Some [10; 21]%Q)).
Proof. vm_compute. reflexivity. Qed.
(** With threshold 2/5 the reference stays. *)
Example ex102_enough : tg_call (N := QNum) (fun x => Qred x) (@MkTG QNum 1%Q (2 # 5)%Q (Some [10; 20]%Q)) (Some ex102_curr) (Some ex102_prev) =
  (@MkTG QNum 1%Q (2 # 5)%Q (Some [10; 20]%Q), Ret (false, Some [10; 21]%Q)).
Proof. vm_compute. reflexivity. Qed.
(** A tie of real flows: (0, 1) comes before (1, 0). *)
Example ex102_before : before [0; 1]%R [1; 0]%R /\ before [1; 0]%R [1; 2]%R.
Proof. split; [exists 0, 0%R, 1%R|exists 1, 0%R, 2%R]; cbn; repeat split; lra. Qed.
(** Four points, a fit and three of four points used: the new matrix is composed with the accumulated shift. *)
Definition ex102_shift (t : Q) : mat3 QNum := @MkM QNum 1%Q 0%Q t 0%Q 1%Q 0%Q 0%Q 0%Q 1%Q.
Definition ex102_square : points QNum := [[0; 0]; [1; 0]; [0; 1]; [1; 1]]%Q.
Example ex102_homography : hg_call (fun _ _ => Ret (Some (ex102_shift 2), Some [true; true; true; false])) (@MkHG QNum (9 # 10)%Q (Some (ex102_shift 3)))
    (Some ex102_square) (Some ex102_square) = (@MkHG QNum (9 # 10)%Q (Some (ex102_shift 5)), Ret (true, Some (MkHom (ex102_shift 5) (ex102_shift (-5)%Q)))).
Proof. vm_compute. reflexivity. Qed.
Example ex102_lost : hg_call (fun _ _ => Ret (None, Some [false; false; false; false])) (@MkHG QNum (9 # 10)%Q (Some (ex102_shift 3)))
    (Some ex102_square) (Some ex102_square) = (@MkHG QNum (9 # 10)%Q None, Raise ELinAlgError).
Proof. vm_compute. reflexivity. Qed.

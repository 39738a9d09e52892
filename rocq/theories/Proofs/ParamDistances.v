(** C99: the library's distance functions do not look at past detections, point counters and labels. *)
From Coq Require Import ZArith Reals List Bool Arith String.
From Verif Require Import Model.Num Model.Base Model.Filter Model.Tracker Model.Distances Spec.ParamSpec.
Import ListNotations.

Section S.
Context {FO : filter_ops RNum}.
Variable name : label -> label.
Lemma on_points_same f : same_values (FO := FO) name (on_points f) (on_points f).
Proof.
  intros [d|v] [d'|v'] o o' Hc [Ho Hd]; cbn in *; try contradiction; auto. rewrite (sd_points _ _ _ Hc), (so_estimate _ _ _ Ho). reflexivity.
Qed.
Lemma voting_same t s : same_values (FO := FO) name (keypoints_voting_distance t s) (keypoints_voting_distance t s).
Proof.
  intros [d|v] [d'|v'] o o' Hc [Ho Hd]; cbn in *; try contradiction; auto.
  rewrite (sd_points _ _ _ Hc), (sd_scores _ _ _ Hc), (sd_scores _ _ _ Hd), (so_estimate _ _ _ Ho). reflexivity.
Qed.
Lemma builtin_same :
  (forall s f, In (s, f) (@scalar_functions FO) -> same_values name f f) /\
  (forall t s, same_values (FO := FO) name (keypoints_voting_distance t s) (keypoints_voting_distance t s)) /\
  (forall height width, same_values (FO := FO) name (normalized_mean_euclidean_distance height width) (normalized_mean_euclidean_distance height width)).
Proof.
  split; [|split].
  - intros s f H. cbn in H. repeat (destruct H as [H|H]; [injection H as _ <-; apply on_points_same|]). destruct H.
  - exact voting_same.
  - intros h w. apply on_points_same.
Qed.
End S.

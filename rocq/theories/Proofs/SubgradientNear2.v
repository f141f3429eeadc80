(** Inexact inference and subgradient learning: an oracle that gives up early. *)
From Coq Require Import ZArith Permutation.
From Verif Require Import Model.Subgradient Spec.NearSpec Spec.SubgradientRateSpec Proofs.Arrays Proofs.LearnerProofs Proofs.NSlackProofs5 Proofs.OneSlackProofs Proofs.SubgradientProofs3 Proofs.SubgradientProofs2
  Proofs.NSlackExamples Proofs.OneSlackExamples Proofs.SubgradientRate7 Proofs.NearExamples Proofs.SubgradientConstant2.

Lemma ex62_near eps S : 0 <= eps -> ones S -> batch_near eps (ex49_bm eps) ex9_task 2 (map fst S) (map snd S).
Proof.
  intros HE HS. apply base_batch_near; [rewrite !map_length; reflexivity|reflexivity|]. rewrite split_pairs. apply lazy_near; [exact HE|]. exact (ones_oracle S HS).
Qed.
Lemma ex62_all eps S S' : 0 <= eps -> ones S -> Permutation S' S -> batch_near eps (ex49_bm eps) ex9_task 2 (map fst S') (map snd S').
Proof. intros HE HS HP. apply ex62_near; [exact HE|]. exact (Permutation_Forall (Permutation_sym HP) HS). Qed.
Definition ex62_S : list (list Qc * nat) := [([1], 0%nat); ([1], 0%nat); ([1], 0%nat)].
Lemma ex62_ones : ones ex62_S.
Proof. repeat constructor. Qed.

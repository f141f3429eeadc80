(** Specification vocabulary for negative indices. *)
From Coq Require Import ZArith.
From Verif Require Export Model.SignedIndices Spec.EdgeSpec.

(** the row of [n] that index [z] means *)
Definition meant (n : nat) (z : Z) : nat := Z.to_nat (if (z <? 0)%Z then z + Z.of_nat n else z).
Definition in_range (n : nat) (z : Z) : Prop := (- Z.of_nat n <= z < Z.of_nat n)%Z.
(** the model with the rows that are meant *)
Definition efz_meant (g : efz_crf) : ef_crf :=
  let F := efz_edge_features g in EFCRF (efz_states g) (efz_features g) F (map (meant F) (efz_sym g)) (map (meant F) (efz_anti g)).

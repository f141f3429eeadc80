(** Specifications for the inference wrappers: integer energies (QPBO) and several node types. *)
From Verif Require Export Spec.Energy.

Definition zget (a : list (list Z)) (i j : nat) : Z := nth j (nth i a []) 0%Z.
(** energy of a labelling under integer tables *)
Definition int_energy (n : nat) (edges : list (nat * nat)) (U : list (list Z)) (P : list (list (list Z))) (y : list nat) : Qc :=
  score n edges (fun i s => ofZ (zget U i s)) (fun e s t => ofZ (zget (nth e P []) s t)) (lab y).
Definition int_minimiser (n k : nat) (edges : list (nat * nat)) (U : list (list Z)) (P : list (list (list Z))) (y : list nat) : Prop :=
  labelling n k y /\ forall y', labelling n k y' -> int_energy n edges U P y <= int_energy n edges U P y'.

(** -1000 q, truncated towards zero, is an int32 *)
Definition fits_int32 (q : Qc) : Prop :=
  ofZ (- 2147483648) < ofZ 1000 * q /\ ofZ 1000 * q < ofZ 2147483649.

(** sum of [f] over the first [j] entries *)
Definition before {A} (f : A -> nat) (l : list A) (j : nat) : nat := list_sum (map f (firstn j l)).

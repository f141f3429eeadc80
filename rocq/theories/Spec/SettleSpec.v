(** Specification vocabulary for the convergence of LatentSSVM. *)
From Verif Require Export Spec.LatentSSVMSpec Spec.SubgradientRateSpec.

(** the weights of the i-th fit of a run, and how far they move in the next one *)
Definition run_weights {Y B} (w : B -> list Qc) (l : list (list Y * B)) (i : nat) : list Qc :=
  match nth_error l i with Some q => w (snd q) | None => [] end.
Definition moved {Y B} (w : B -> list Qc) (l : list (list Y * B)) (i : nat) : Qc :=
  normsq (vsub (run_weights w l (S i)) (run_weights w l i)).
(** the product of some numbers *)
Definition product (l : list nat) : nat := fold_right Nat.mul 1%nat l.

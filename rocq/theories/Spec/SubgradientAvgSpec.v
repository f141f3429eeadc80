(** Specification vocabulary for the convergence of averaged subgradient training. *)
From Verif Require Export Spec.SubgradientRateSpec.

(** the default schedule with any averaging: no momentum, learning rate C * n / (t + t0) *)
Definition averaged (prm : sg_params) (C t0 : Qc) (a : averaging) : Prop :=
  sg_C prm = C /\ sg_t0 prm = t0 /\ sg_momentum prm = 0 /\ sg_decay prm = 1%nat /\ sg_lr prm = None /\ sg_avg prm = a.

(** Specification vocabulary for the convergence of Frank-Wolfe learning. *)
From Coq Require Import Permutation.
From Verif Require Export Spec.FrankWolfeSpec Spec.SpanSpec.

(** joint features of allowed outputs are within [R] of the true one, losses at most [L] *)
Definition bounded {X Y} (T : task X Y) (R L : Qc) (S : list (X * Y)) : Prop :=
  0 <= R /\ 0 <= L /\ forall p y', In p S -> t_label T (fst p) y' ->
    normsq (vsub (t_feat T (fst p) (snd p)) (t_feat T (fst p) y')) <= R * R /\ 0 <= t_loss T (snd p) y' /\ t_loss T (snd p) y' <= L.

(** ** block-coordinate mode *)
(** every pass visits every sample once: sample_method 'perm' or 'seq' *)
Definition passes (n : nat) (sched : nat -> list nat) : Prop := forall it, Permutation (sched it) (seq 0 n).
(** largest squared distance between two points of a block (and eps) *)
Definition bc_curvature (C R : Qc) : Qc := (1 + 1) * (C * R) * ((1 + 1) * (C * R)) + fw_eps.
(** what an update with block gap at least [delta]^2 gains in the dual objective *)
Definition bc_gain (C R delta : Qc) : Qc := delta * delta * (delta * delta) / ((1 + 1) * bc_curvature C R).
(** duality gap after a pass with smaller block gaps; during the next such pass *)
Definition bc_gap (n : nat) (C R delta : Qc) : Qc := ofN n * (delta * delta) + (1 + 1) * (C * R) * (ofN n * ofN n * delta).
Definition bc_gap' (n : nat) (C R delta : Qc) : Qc :=
  bc_gap n C R delta + (1 + 1) * (C * R) * (ofN n * ofN n * delta) + ofN n * delta * (ofN n * delta) / (1 + 1).
(** largest duality gap of any dual-feasible point *)
Definition worst_gap (n : nat) (C R L : Qc) : Qc := (1 + 1) * (C * ofN n * R) * (C * ofN n * R) + C * ofN n * L.

(** ** batch mode: the gap is divided by C n *)
Definition batch_curvature (n : nat) (C R : Qc) : Qc := ofN 4 * (C * ofN n) * (R * R) + fw_eps.

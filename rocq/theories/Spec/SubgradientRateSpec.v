(** Specification vocabulary for the convergence of subgradient training. *)
From Coq Require Import ZArith.
From Verif Require Export Spec.SubgradientSpec.

(** Weights whose objective C * (sum of hinge losses) + |w|^2 / 2 exceeds that of no other weights
    by more than [eps]. *)
Definition near_minimal {X Y} (T : task X Y) (d : nat) (C : Qc) (S : list (X * Y)) (w : list Qc) (eps : Qc) : Prop :=
  length w = d /\ exists hs, hinges T w S hs /\
  forall v hv, length v = d -> hinges T v S hv -> primal_value C w hs <= primal_value C v hv + eps.
(** ... with a weight for every sample *)
Definition weighted_value (cs : list Qc) (w hs : list Qc) : Qc := lsum (zipw Qcmult cs hs) + normsq w / (1 + 1).
Definition near_minimal_weighted {X Y} (T : task X Y) (d : nat) (cs : list Qc) (S : list (X * Y)) (w : list Qc) (eps : Qc) : Prop :=
  length w = d /\ exists hs, hinges T w S hs /\
  forall v hv, length v = d -> hinges T v S hv -> weighted_value cs w hs <= weighted_value cs v hv + eps.

(** 1 / (t0 + first) + 1 / (t0 + first + m) + ... , [E] terms: one for every epoch of [m] steps *)
Definition strided (t0 : Qc) (first m E : nat) : Qc := lsum (map (fun e => / (ofN (first + e * m) + t0)) (seq 0 E)).
(** the weights a learner starts from *)
Definition start_weights (d : nat) (L : sg_learner) : list Qc :=
  match sl_fitted L with Some (w, _, _) => w | None => vzero d end.
(** the default schedule: no momentum, no averaging, learning rate C * n / (t + t0) *)
Definition pegasos (prm : sg_params) (C t0 : Qc) : Prop :=
  sg_C prm = C /\ sg_t0 prm = t0 /\ sg_momentum prm = 0 /\ sg_decay prm = 1%nat /\ sg_lr prm = None /\ sg_avg prm = AvgNone.
(** a warm start keeps the learning rate of the earlier fit: it was on as many samples *)
Definition same_rate (prm : sg_params) (n : nat) (warm : bool) (L : sg_learner) : Prop :=
  warm = true -> exists w c, sl_fitted L = Some (w, sg_C prm * ofN n, c).
(** number of batches of (about) [b] samples *)
Definition batch_count (n b : nat) : nat := ((n + b - 1) / b)%nat.
(** n_jobs = 1: [m] steps per epoch, on equally large batches *)
Definition equal_steps (prm : sg_params) (n m : nat) : Prop :=
  sg_jobs prm = 1%Z /\
  match sg_batch prm with
  | None => m = n
  | Some b => (b = -1 /\ m = 1%nat)%Z \/ (0 < b)%Z /\ n = (m * Z.to_nat b)%nat
  end.
(** n_jobs <> 1: batches of [b] samples *)
Definition parallel_steps (prm : sg_params) (b : nat) : Prop :=
  sg_batch prm = None /\ (0 < b)%nat /\
  (1 < sg_jobs prm /\ b = Z.to_nat (sg_jobs prm) \/ sg_jobs prm = -1 /\ b = sg_cpus prm)%Z.
(** the batch methods are exact on every part of the training set *)
Definition batches_exact {X Y} (bm : bmodel X Y) (T : task X Y) (d : nat) (S : list (X * Y)) : Prop :=
  sm_rescale (bm_s bm) = false /\ forall B, incl B S -> B <> [] -> batch_exact bm T d (map fst B) (map snd B).
(** Factors of the hinge losses when [n] samples are split into consecutive batches of the given
    sizes and every step counts the mean of its batch. *)
Definition batch_factors (C : Qc) (n : nat) (sizes : list nat) : list Qc :=
  concat (map (fun k => repeat (C * ofN n / ofN k / ofN (length sizes)) k) sizes).
(** sizes of [m] even slices of [n] samples *)
Definition even_sizes_of (n m : nat) : list nat :=
  repeat (Datatypes.S (n / m)) (n mod m) ++ repeat (n / m)%nat (m - n mod m).

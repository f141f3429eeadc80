(** Specification vocabulary for subgradient learning. *)
From Coq Require Import ZArith.
From Verif Require Export Spec.OneSlackSpec Model.Subgradient.

(** [tr] is an execution: states, each obtained from the previous one by a step along some
    feature difference *)
Fixpoint sg_trace (prm : sg_params) (n : nat) (lr : Qc) (st : sg_state) (tr : list sg_state) : Prop :=
  match tr with
  | [] => True
  | st' :: r => (exists dj, solve_subgradient prm n lr dj st = Ok st') /\ sg_trace prm n lr st' r
  end.
(** sum c_j v_j / sum c_j over j = 1, ..., T *)
Definition weighted_sum (c : nat -> Qc) (first : nat) (vs : list Qc) : Qc :=
  lsum (zipw (fun j v => c j * v) (seq first (length vs)) vs).
Definition total (c : nat -> Qc) (n : nat) : Qc := lsum (map c (seq 1 n)).
Definition weighted_mean (c : nat -> Qc) (vs : list Qc) : Qc := weighted_sum c 1 vs / total c (length vs).
(** weight of the j-th iterate *)
Definition avg_weight (a : averaging) (j : nat) : Qc :=
  match a with
  | AvgNone => 1
  | AvgLinear => ofN j
  | AvgSquared => ofN j * ofN j
  end.

(** [g] is a subgradient at [w] of the objective C * (sum of hinge losses of S) + |w|^2 / 2 *)
Definition subgradient {X Y} (T : task X Y) (d : nat) (C : Qc) (S : list (X * Y)) (w g : list Qc) : Prop :=
  length g = d /\
  forall w' hs hs', length w' = d -> hinges T w S hs -> hinges T w' S hs' ->
    primal_value C w hs + dot g (vsub w' w) <= primal_value C w' hs'.

(** ... of a strongly convex function *)
Definition strong_subgradient {X Y} (T : task X Y) (d : nat) (C : Qc) (S : list (X * Y)) (w g : list Qc) : Prop :=
  length g = d /\
  forall w' hs hs', length w' = d -> hinges T w S hs -> hinges T w' S hs' ->
    primal_value C w hs + dot g (vsub w' w) + normsq (vsub w' w) / (1 + 1) <= primal_value C w' hs'.

(** the learning rate of a step *)
Definition rate_at (prm : sg_params) (lr : Qc) (t : nat) : Qc :=
  if (sg_decay prm =? 0)%nat then lr else lr / Qcpower (ofN t + sg_t0 prm) (sg_decay prm).
(** ... is defined, and so is the regularisation term *)
Definition can_step (prm : sg_params) (n t : nat) : Prop :=
  sg_C prm * ofN n <> 0 /\ (sg_decay prm <> O -> ofN t + sg_t0 prm <> 0).
(** the state after one step against [g] *)
Definition step_against (prm : sg_params) (n : nat) (lr : Qc) (g : list Qc) (st st' : sg_state) : Prop :=
  sg_w st' = vsub (sg_w st) (vscale (rate_at prm lr (sg_t st) / (sg_C prm * ofN n)) g) /\
  sg_self st' = sg_expose (sg_avg prm) (sg_t st) (sg_self st) (sg_w st') /\ sg_t st' = S (sg_t st).
Definition shaped (d : nat) (st : sg_state) : Prop :=
  length (sg_w st) = d /\ length (sg_self st) = d /\ length (sg_grad st) = d.

(** online learning: the samples visited, each with the state after its step *)
Fixpoint sg_visits {X Y} (prm : sg_params) (m : smodel X Y) (n : nat) (lr : Qc) (st : sg_state) (V : list (X * Y * sg_state)) : Prop :=
  match V with
  | [] => True
  | (p, st') :: r => (exists b, sg_online_step prm m n lr p st = Ok (st', b)) /\ sg_visits prm m n lr st' r
  end.
(** ... each with the weights before its step *)
Fixpoint befores {X Y} (st : sg_state) (V : list (X * Y * sg_state)) : list (X * Y * list Qc) :=
  match V with
  | [] => []
  | (p, st') :: r => (p, sg_w st) :: befores st' r
  end.
(** sum over the visits of C * hinge + |w|^2 / 2, with the weights of the visit *)
Definition visit_hinges {X Y} (T : task X Y) (V : list (X * Y * list Qc)) (hs : list Qc) : Prop :=
  Forall2 (fun q h => is_hinge T (snd q) (fst (fst q)) (snd (fst q)) h) V hs.
Definition online_cost {A} (C : Qc) (V : list (A * list Qc)) (hs : list Qc) : Qc :=
  lsum (zipw (fun q h => primal_value C (snd q) [h]) V hs).
(** 1 / (t0 + first) + ... + 1 / (t0 + first + k - 1) *)
Definition harmonic (t0 : Qc) (first k : nat) : Qc := lsum (map (fun t => / (ofN t + t0)) (seq first k)).
(** no allowed output is further than sqrt R2 from the true one *)
Definition spread {X Y} (T : task X Y) (R2 : Qc) (p : X * Y) : Prop :=
  forall y', t_label T (fst p) y' -> normsq (vsub (t_feat T (fst p) (snd p)) (t_feat T (fst p) y')) <= R2.
(** settings of n_jobs and batch_size *)
Definition online_mode (prm : sg_params) : Prop := sg_jobs prm = 1%Z /\ (sg_batch prm = None \/ sg_batch prm = Some 1%Z).
Definition full_batch (prm : sg_params) : Prop := sg_jobs prm = 1%Z /\ sg_batch prm = Some (-1)%Z.
Definition mini_mode (prm : sg_params) : Prop := sg_jobs prm = 1%Z /\ exists b, sg_batch prm = Some b /\ b <> 1%Z.

(** Passes of the latent subgradient learner in parallel mode and what it appends to
    objective_curve_. *)
From Verif Require Export Spec.LatentSpec.

(** Batches looked at one after the other from state [st]: samples, state after the step, slacks.
    All constraints of a batch are found at the weights before it; the step is one along the mean
    of their feature differences. *)
Fixpoint par_batches {X Y} (prm : sg_params) (m : lmodel X Y) (n : nat) (lr : Qc) (st : sg_state)
         (V : list (list (X * Y) * sg_state * list Qc)) : Prop :=
  match V with
  | [] => True
  | (B, st', sls) :: r =>
      B <> [] /\
      (exists cs dj, mapM (fun p => find_constraint_latent m (fst p) (snd p) (sg_w st)) B = Ok cs /\ sls = map (fun c => snd (fst c)) cs /\
         sum_features (vzero (sm_size (lm_s m))) (map (fun c => Ok (snd (fst (fst c)))) cs) = Ok dj /\
         solve_subgradient prm n lr (vscale (/ ofN (length B)) dj) st = Ok st') /\
      par_batches prm m n lr st' r
  end.
Definition par_end {X Y} (st : sg_state) (V : list (list (X * Y) * sg_state * list Qc)) : sg_state := last (map (fun v => snd (fst v)) V) st.
(** the batches of a pass make up the sample, in order, and none has more samples than cores *)
Fixpoint par_passes {X Y} (prm : sg_params) (m : lmodel X Y) (lr : Qc) (S : list (X * Y)) (st : sg_state)
         (Ps : list (list (list (X * Y) * sg_state * list Qc))) : Prop :=
  match Ps with
  | [] => True
  | V :: r => concat (map (fun v => fst (fst v)) V) = S /\ Forall (fun v => (length (fst (fst v)) <= sg_cpus prm)%nat) V /\
              par_batches prm m (length S) lr st V /\ par_passes prm m lr S (par_end st V) r
  end.
Fixpoint par_passes_end {X Y} (st : sg_state) (Ps : list (list (list (X * Y) * sg_state * list Qc))) : sg_state :=
  match Ps with [] => st | V :: r => par_passes_end (par_end st V) r end.
Definition par_entry {X Y} (C : Qc) (st : sg_state) (V : list (list (X * Y) * sg_state * list Qc)) : Qc :=
  C * lsum (concat (map snd V)) + normsq (sg_self (par_end st V)) / (1 + 1).
Fixpoint par_entries {X Y} (C : Qc) (st : sg_state) (Ps : list (list (list (X * Y) * sg_state * list Qc))) : list Qc :=
  match Ps with [] => [] | V :: r => par_entry C st V :: par_entries C (par_end st V) r end.
(** the weights at which the batches of [V] are looked at *)
Fixpoint par_looked_at {X Y} (st : sg_state) (V : list (list (X * Y) * sg_state * list Qc)) : list (list Qc) :=
  match V with
  | [] => []
  | (_, st', _) :: r => sg_w st :: par_looked_at st' r
  end.

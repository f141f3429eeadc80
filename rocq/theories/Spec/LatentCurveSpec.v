(** Passes of the latent subgradient learner over the data and what it appends to
    objective_curve_. *)
From Verif Require Export Spec.LatentSpec.

(** the state after the visits [V] *)
Definition pass_end {X Y} (st : sg_state) (V : list (X * Y * sg_state * Qc)) : sg_state := last (map (fun v => snd (fst v)) V) st.
(** the weights at which the samples of [V] are looked at *)
Fixpoint looked_at {X Y} (st : sg_state) (V : list (X * Y * sg_state * Qc)) : list (list Qc) :=
  match V with
  | [] => []
  | (_, st', _) :: r => sg_w st :: looked_at st' r
  end.
(** passes over all of [S], one after the other *)
Fixpoint lsg_passes {X Y} (prm : sg_params) (m : lmodel X Y) (lr : Qc) (S : list (X * Y)) (st : sg_state)
         (Ps : list (list (X * Y * sg_state * Qc))) : Prop :=
  match Ps with
  | [] => True
  | V :: r => map (fun v => fst (fst v)) V = S /\ lsg_visits prm m (length S) lr st V /\ lsg_passes prm m lr S (pass_end st V) r
  end.
Fixpoint passes_end {X Y} (st : sg_state) (Ps : list (list (X * Y * sg_state * Qc))) : sg_state :=
  match Ps with [] => st | V :: r => passes_end (pass_end st V) r end.
(** C times the positive slacks met on the way, plus half the squared norm of the attribute w at
    the end of the pass *)
Definition pass_entry {X Y} (C : Qc) (st : sg_state) (V : list (X * Y * sg_state * Qc)) : Qc :=
  C * lsum (map (fun v => Qcmax (snd v) 0) V) + normsq (sg_self (pass_end st V)) / (1 + 1).
Fixpoint pass_entries {X Y} (C : Qc) (st : sg_state) (Ps : list (list (X * Y * sg_state * Qc))) : list Qc :=
  match Ps with [] => [] | V :: r => pass_entry C st V :: pass_entries C (pass_end st V) r end.

(** Passes of SubgradientSSVM: the state after each and the order of the samples in it. *)
Fixpoint sg_passes {X Y} (prm : sg_params) (bm : bmodel X Y) (lr : Qc) (shuf : nat -> list (X * Y) -> list (X * Y)) (it : nat)
         (S : list (X * Y)) (st : sg_state) (Ps : list (sg_state * list (X * Y))) : Prop :=
  match Ps with
  | [] => True
  | (st', S') :: r => S' = shuf it S /\ (exists pos, sg_epoch prm bm lr S' st = Ok (st', pos)) /\ sg_passes prm bm lr shuf (Datatypes.S it) S' st' r
  end.

(** Prediction: when a batch method stands for the per-sample one. *)
From Coq Require Import ZArith Permutation.
From Verif Require Export Model.Predict.

(** None or an empty list *)
Definition no_constraints {K} (c : option (list K)) : Prop := c = None \/ c = Some [].
(** batch_inference, if the model has it, maps inference over these samples *)
Definition batch_agrees {X Y K} (m : pmodel X Y K) (w : list Qc) (Xs : list X) : Prop :=
  match pm_batch m with Some f => f Xs w = mapM (fun x => pm_inf m x w) Xs | None => True end.
Definition batch_c_agrees {X Y K} (m : pmodel X Y K) (w : list Qc) (Xs : list X) (cs : list K) : Prop :=
  match pm_batch m with
  | Some _ => pm_batch_c m Xs w cs = mapM (fun p => pm_inf_c m (fst p) w (snd p)) (combine Xs cs)
  | None => True
  end.
(** the workers may finish in any order, but each task finishes once *)
Definition schedule (n_jobs : Z) (order : list nat) (tasks : nat) : Prop :=
  n_jobs <> 0%Z /\ (n_jobs <> 1%Z -> Permutation order (seq 0 tasks)).

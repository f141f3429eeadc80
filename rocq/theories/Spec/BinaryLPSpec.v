(** Two labels: models that reward agreement, and readings of an optimum of the relaxation. *)
From Verif Require Export Spec.Energy Spec.LocalPolytope.

(** every edge table scores agreement at least as high as disagreement, summed over the two ways *)
Definition attractive (n_edges : nat) (P : nat -> nat -> nat -> Qc) : Prop :=
  forall e, (e < n_edges)%nat -> P e 0%nat 1%nat + P e 1%nat 0%nat <= P e 0%nat 0%nat + P e 1%nat 1%nat.

(** a point of the relaxation of best value *)
Definition relaxed_optimum (n k : nat) (edges : list (nat * nat)) (U : nat -> nat -> Qc) (P : nat -> nat -> nat -> Qc)
           (mu : nat -> nat -> Qc) (nu : nat -> nat -> nat -> Qc) : Prop :=
  local_polytope n k edges mu nu /\
  forall mu' nu', local_polytope n k edges mu' nu' ->
    marginal_score n k edges U P mu' nu' <= marginal_score n k edges U P mu nu.

(** label 1 where its marginal exceeds [theta] *)
Definition threshold (n : nat) (theta : Qc) (mu : nat -> nat -> Qc) : list nat :=
  map (fun i => if Qcltb theta (mu i 1%nat) then 1%nat else 0%nat) (seq 0 n).

(** the labels that the marginals decide, and those of [z] elsewhere *)
Definition keep_decided (n : nat) (mu : nat -> nat -> Qc) (z : list nat) : list nat :=
  map (fun i => if Qceqb (mu i 1%nat) 1 then 1%nat else if Qceqb (mu i 1%nat) 0 then 0%nat else lab z i) (seq 0 n).

From Verif Require Import Model.LP Spec.LPSpec.
(** the LP backend solves the linear program of the call inference_lp(U, p, edges) to optimality *)
Definition lp_solved (solve : lp_solver) (U : mat) (p : pairwise) (edges : list (nat * nat)) : Prop :=
  exists pws pb x, validate_params U p (length edges) = Ok (mcols U, pws) /\
    lp_build (mat_neg U) edges (map (map (map Qcopp)) pws) = Ok pb /\ solve pb = Ok x /\ optimal pb x.

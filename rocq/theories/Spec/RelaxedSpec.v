(** Learning with relaxed inference: the outputs of the task are the labellings and the points of
    the local polytope. *)
From Coq Require Import String.
From Verif Require Export Spec.TaskSpec Spec.TaskInstances Spec.LocalPolytope Spec.BinaryLPSpec Spec.LossSpec Spec.GraphSpec
  Spec.LPSpec Model.RelaxedCRF.

(** entry (s, t) of edge e in the array of pairwise marginals *)
Definition pair_of (k : nat) (pm : mat) (e s t : nat) : Qc := mget pm e (s * k + t).
Definition shaped (m : mat) (r c : nat) : Prop := mat_ok m /\ mrows m = r /\ mcols m = c.
Definition in_relaxation (n k : nat) (edges : list (nat * nat)) (um pm : mat) : Prop :=
  shaped um n k /\ shaped pm (length edges) (k * k) /\ local_polytope n k edges (mget um) (pair_of k pm).

(** price of the mass that the marginals take away from the true labels *)
Definition relaxed_loss (c : nat -> Qc) (y : list nat) (mu : nat -> nat -> Qc) : Qc :=
  sumn (length y) (fun i => c (lab y i) * (1 - mu i (lab y i))).

Definition relaxed_task (g : graph_crf) (cw : list Qc) : task graph_x result :=
  Task (fun x r => match r with
                   | RLabels y => labelling (mrows (gx_features x)) (g_states g) y
                   | RMarginals um pm => in_relaxation (mrows (gx_features x)) (g_states g) (gx_edges x) um pm
                   | RMarginalsList _ _ => False
                   end)
       (fun x r => match r with
                   | RLabels y => ok_or [] (g_joint_feature g x (Discrete y))
                   | RMarginals um pm => ok_or [] (g_joint_feature g x (Relaxed (ravel um) (ravel pm)))
                   | RMarginalsList _ _ => []
                   end)
       (fun y r => match y, r with
                   | RLabels y, RLabels y' => hamming (length y) (get1 cw) (lab y) (lab y')
                   | RLabels y, RMarginals um _ => relaxed_loss (get1 cw) y (mget um)
                   | _, _ => 0
                   end).

(** [r] is a best point of the relaxation *)
Definition best_relaxed (n k : nat) (edges : list (nat * nat)) (U : nat -> nat -> Qc) (P : nat -> nat -> nat -> Qc) (r : result) : Prop :=
  match r with
  | RLabels y => labelling n k y /\ relaxed_optimum n k edges U P (one_hot_mu (lab y)) (one_hot_nu edges (lab y))
  | RMarginals um pm => shaped um n k /\ shaped pm (length edges) (k * k) /\
                        relaxed_optimum n k edges U P (mget um) (pair_of k pm)
  | RMarginalsList _ _ => False
  end.
(** on this graph the inference method solves the relaxation when asked for relaxed solutions *)
Definition solves_relaxation (b : backends) (meth : method) (n : nat) (edges : list (nat * nat)) : Prop :=
  forall U m k, shaped U n k -> shaped m k k -> (0 < k)%nat ->
    exists r e, inference_dispatch b (Single U (Pw2 m) edges) meth false [("relaxed"%string, VBool true)] = Ok (r, e) /\
      best_relaxed n k edges (mget U) (fun _ => mget m) r.

(** scores of states at nodes and of pairs of states at edges under weights [w] *)
Definition node_scores (g : graph_crf) (x : graph_x) (w : list Qc) (i s : nat) : Qc :=
  unary_score (g_features g) w (mget (gx_features x) i) s.
Definition edge_scores (g : graph_crf) (w : list Qc) (e s t : nat) : Qc :=
  pair_score (g_states g) (g_features g) (g_directed g) w s t.
(** marginals of a result *)
Definition node_marginals (r : result) : nat -> nat -> Qc :=
  match r with RLabels y => one_hot_mu (lab y) | RMarginals um _ => mget um | _ => fun _ _ => 0 end.
Definition edge_marginals (k : nat) (edges : list (nat * nat)) (r : result) : nat -> nat -> nat -> Qc :=
  match r with RLabels y => one_hot_nu edges (lab y) | RMarginals _ pm => pair_of k pm | _ => fun _ _ _ => 0 end.

(** the LP backend finds an optimum of every linear program that has one *)
Definition finds_optima (solve : lp_solver) : Prop :=
  forall pb, (exists x, optimal pb x) -> exists x, solve pb = Ok x /\ optimal pb x.
(** the AD3 library solves the relaxation on this graph and reports integral solutions only when they are *)
Definition ad3_solves (lib : ad3_lib) (n : nat) (edges : list (nat * nat)) : Prop :=
  forall U m k, shaped U n k -> shaped m k k -> (0 < k)%nat ->
    exists um pm energy st, ad3_graph lib U edges (repeat (mdat m) (length edges)) (VBool false) = Ok (um, pm, energy, st) /\
      shaped um n k /\ shaped pm (length edges) (k * k) /\
      relaxed_optimum n k edges (mget U) (fun _ => mget m) (mget um) (pair_of k pm) /\
      (not_integral st = false -> forall i s, (i < n)%nat -> (s < k)%nat -> mget um i s = 0 \/ mget um i s = 1).

(** a sample of GraphCRF: feature rows, edges between nodes, at least one node, one label per node *)
Definition graph_sample (g : graph_crf) (x : graph_x) (y : list nat) : Prop :=
  mat_ok (gx_features x) /\ mcols (gx_features x) = g_features g /\ graph_edges (mrows (gx_features x)) (gx_edges x) /\
  (0 < mrows (gx_features x))%nat /\ labelling (mrows (gx_features x)) (g_states g) y.
(** the predictions of a model *)
Definition predicts (m : smodel graph_x result) (w : list Qc) (Xs : list graph_x) (preds : list (list nat)) : Prop :=
  Forall2 (fun x y => sm_inference m x w = Ok (RLabels y)) Xs preds.

(** C87: training with relaxed inference.  The learners ask loss-augmented inference for relaxed solutions, so 'lp' and
    'ad3' train on the points of the local polytope: which objective that is, and what it says about predictions. *)
From Coq Require Import String.
From Verif Require Import Model.LP Model.Inference Model.CRF Model.Loss Model.RelaxedCRF Spec.Energy Spec.SolverSpec Spec.LocalPolytope Spec.LPSpec
  Spec.GraphSpec Spec.GraphTheory Spec.LossSpec Spec.BinaryLPSpec Spec.NSlackSpec Spec.OneSlackSpec Spec.CuttingPlaneSpec Spec.RelaxedSpec
  Proofs.Arrays Proofs.GraphCRFProofs Proofs.RelaxedTask Proofs.RelaxedLP Proofs.RelaxedTraining Proofs.RelaxedTraining2 Proofs.RelaxedExamples.
Open Scope string_scope. Open Scope Qc_scope.

(** ** the task *)
(** GraphCRF with any inference method computes joint features and losses of the relaxed task: of labellings and of tuples
    of marginals; the loss of a tuple is the weighted mass taken away from the true labels. *)
Theorem C87_implements :
  forall b meth g cw x y, graph_sample g x y -> (0 < g_states g)%nat -> length cw = g_states g ->
    implements (relaxed_smodel b meth g cw) (relaxed_task g cw) (g_size g) x (RLabels y).
Proof. intros b meth g cw x y H Hk Hc. apply relaxed_implements; [apply (sample_valid g x y H)|exact Hk|exact Hc|apply H]. Qed.
(** The score of every allowed answer is its expected score under the marginals. *)
Theorem C87_score :
  forall g cw x y w r, graph_sample g x y -> (0 < g_states g)%nat -> length w = g_size g -> t_label (relaxed_task g cw) x r ->
    dot w (t_feat (relaxed_task g cw) x r) =
      marginal_score (mrows (gx_features x)) (g_states g) (gx_edges x) (node_scores g x w) (edge_scores g w)
        (node_marginals r) (edge_marginals (g_states g) (gx_edges x) r) /\
    t_loss (relaxed_task g cw) (RLabels y) r = relaxed_loss (get1 cw) y (node_marginals r).
Proof.
  intros g cw x y w r H Hk Hw Hr. split.
  - exact (feat_score g cw x (sample_valid g x y H) Hk r w Hr Hw).
  - apply (loss_value g cw x y r); [apply H|exact Hr].
Qed.

(** ** who solves the relaxation *)
(** Every relaxation has an optimum, for any number of states, graph and tables; so has the linear program that
    lp_general_graph builds from negated potentials. *)
Theorem C87_relaxation_has_an_optimum :
  forall n k edges U P, graph_edges n edges -> (0 < n)%nat -> (0 < k)%nat -> exists mu nu, relaxed_optimum n k edges U P mu nu.
Proof. exact relaxed_optimum_exists. Qed.
Theorem C87_lp_has_an_optimum :
  forall U p edges n k, mat_ok U -> mrows U = n -> mcols U = k -> (0 < n)%nat -> (0 < k)%nat ->
    graph_edges n edges -> pw_ok p -> pw_shape p (length edges) k ->
    exists pws pb x, validate_params U p (length edges) = Ok (k, pws) /\
      lp_build (mat_neg U) edges (map (map (map Qcopp)) pws) = Ok pb /\ optimal pb x.
Proof. exact lp_optimum_exists. Qed.
(** 'lp' does when its backend finds optima of linear programs, 'ad3' when the library does, and on chains max-product. *)
Theorem C87_lp_solves :
  forall b n edges, finds_optima (b_lp b) -> graph_edges n edges -> (0 < n)%nat -> solves_relaxation b (Name "lp") n edges.
Proof. exact lp_solves. Qed.
Theorem C87_ad3_solves :
  forall b lib n edges, b_ad3 b = Some lib -> graph_edges n edges -> ad3_solves lib n edges -> solves_relaxation b (Name "ad3") n edges.
Proof. exact ad3_solves_relaxation. Qed.
Theorem C87_exact_labels_solve :
  forall b meth n edges, graph_edges n edges -> acyclic edges ->
    (forall U m k, shaped U n k -> shaped m k k -> (0 < k)%nat -> exists y e,
       inference_dispatch b (Single U (Pw2 m) edges) meth false [("relaxed", VBool true)] = Ok (RLabels y, e) /\
       maximiser n k edges (mget U) (fun _ => mget m) y) ->
    solves_relaxation b meth n edges.
Proof. exact labels_solve. Qed.
Theorem C87_max_product_solves :
  forall b n, (0 < n)%nat -> solves_relaxation b (Name "max-product") n (chain_edges n).
Proof. exact chain_solves. Qed.
(** Then loss-augmented inference is exact for the relaxed task, and inference with relaxed=True finds a best point. *)
Theorem C87_loss_augmented :
  forall b meth g cw x y w, graph_sample g x y -> (0 < g_states g)%nat -> length cw = g_states g -> length w = g_size g ->
    solves_relaxation b meth (mrows (gx_features x)) (gx_edges x) ->
    exact_laug (relaxed_smodel b meth g cw) (relaxed_task g cw) w x (RLabels y).
Proof. intros b meth g cw x y w H Hk Hc Hw HS. apply relaxed_exact_laug; [apply (sample_valid g x y H)|exact Hk|exact HS|exact Hc|exact Hw|apply H]. Qed.
Theorem C87_inference :
  forall b meth g cw x y w, graph_sample g x y -> (0 < g_states g)%nat -> length w = g_size g ->
    solves_relaxation b meth (mrows (gx_features x)) (gx_edges x) ->
    exists r, g_dispatch_inference b meth g true x w = Ok r /\
      best_relaxed (mrows (gx_features x)) (g_states g) (gx_edges x) (node_scores g x w) (edge_scores g w) r /\
      t_label (relaxed_task g cw) x r /\
      forall r', t_label (relaxed_task g cw) x r' -> dot w (t_feat (relaxed_task g cw) x r') <= dot w (t_feat (relaxed_task g cw) x r).
Proof. intros b meth g cw x y w H Hk Hw HS. apply relaxed_exact_inference; [apply (sample_valid g x y H)|exact Hk|exact HS|exact Hw]. Qed.

(** ** the objective *)
(** The hinge loss that training minimises is at least the hinge loss over labellings. *)
Theorem C87_upper_bound :
  forall g cw x y w h h', graph_sample g x y ->
    is_hinge (g_task g cw) w x y h -> is_hinge (relaxed_task g cw) w x (RLabels y) h' -> 0 <= h /\ h <= h'.
Proof.
  intros g cw x y w h h' H H1 H2. split; [apply (hinge_nonneg g cw x y w); [apply H|exact H1]|exact (hinge_le g cw x y w h h' H1 H2)].
Qed.
(** They are equal on forests, and for two states whose edge weights reward agreement. *)
Theorem C87_equal_on_forests :
  forall g cw x y w h h', graph_sample g x y -> (0 < g_states g)%nat -> length w = g_size g -> acyclic (gx_edges x) ->
    is_hinge (g_task g cw) w x y h -> is_hinge (relaxed_task g cw) w x (RLabels y) h' -> h' = h.
Proof.
  intros g cw x y w h h' H Hk Hw. apply hinge_forest; [apply (sample_valid g x y H)|exact Hk|exact Hw|apply H].
Qed.
Theorem C87_equal_when_attractive :
  forall g cw x y w h h', graph_sample g x y -> length w = g_size g -> g_states g = 2%nat ->
    edge_scores g w 0 0 1 + edge_scores g w 0 1 0 <= edge_scores g w 0 0 0 + edge_scores g w 0 1 1 ->
    is_hinge (g_task g cw) w x y h -> is_hinge (relaxed_task g cw) w x (RLabels y) h' -> h' = h.
Proof.
  intros g cw x y w h h' H Hw E. apply hinge_attractive; [apply (sample_valid g x y H)|rewrite E; auto|exact Hw|apply H|exact E].
Qed.
(** They differ on a triangle whose edges reward disagreement: 3 over labellings, 7/2 over the relaxation. *)
Theorem C87_equal_in_general_refuted :
  exists g cw x y w h h', graph_sample g x y /\ length w = g_size g /\ g_states g = 2%nat /\
    is_hinge (g_task g cw) w x y h /\ is_hinge (relaxed_task g cw) w x (RLabels y) h' /\ h < h'.
Proof.
  exists ex48_g, ex48_cw, ex48_x, ex48_y, ex48_wa, (ofZ 3), ex48_hinge_a. split; [exact ex48_sample|]. split; [reflexivity|]. split; [reflexivity|].
  split; [exact ex48_true_hinge|]. split; [apply ex48_hinges|reflexivity].
Qed.

(** ** predictions *)
(** The relaxed hinge bounds the loss of every best point of the relaxation.  Predictions are rounded (relaxed=False): their
    loss is at most twice the relaxed hinge. *)
Theorem C87_relaxed_prediction :
  forall g cw x y w h' r, graph_sample g x y -> t_label (relaxed_task g cw) x r ->
    (forall r', t_label (relaxed_task g cw) x r' -> dot w (t_feat (relaxed_task g cw) x r') <= dot w (t_feat (relaxed_task g cw) x r)) ->
    is_hinge (relaxed_task g cw) w x (RLabels y) h' -> t_loss (relaxed_task g cw) (RLabels y) r <= h'.
Proof. intros g cw x y w h' r H. apply (hinge_loss g cw x y w); apply H. Qed.
Theorem C87_rounded_prediction :
  forall b g cw x y w h', graph_sample g x y -> (0 < g_states g)%nat -> length cw = g_states g -> length w = g_size g ->
    (forall s, (s < g_states g)%nat -> 0 <= get1 cw s) -> finds_optima (b_lp b) ->
    is_hinge (relaxed_task g cw) w x (RLabels y) h' ->
    exists y', sm_inference (relaxed_smodel b (Name "lp") g cw) x w = Ok (RLabels y') /\
      labelling (mrows (gx_features x)) (g_states g) y' /\ t_loss (g_task g cw) y y' <= (1 + 1) * h'.
Proof.
  intros b g cw x y w h' H Hk Hc Hw HP HF HH.
  apply (lp_prediction g cw x y w); [apply (sample_valid g x y H)|exact Hk|exact Hw|apply H|exact HF|apply H|exact Hc|exact HP|exact HH].
Qed.
(** Rounding itself: at most twice the loss of the marginals. *)
Theorem C87_rounding :
  forall n k cw edges um pm y y', (0 < k)%nat -> shaped um n k -> local_polytope n k edges (mget um) (pair_of k pm) ->
    (forall s, (s < k)%nat -> 0 <= get1 cw s) -> labelling n k y -> argmax_rows um = Ok y' ->
    labelling n k y' /\ hamming n (get1 cw) (lab y) (lab y') <= (1 + 1) * relaxed_loss (get1 cw) y (mget um).
Proof. exact rounding_loss. Qed.

(** ** learners *)
(** On a data set the oracle of the cutting-plane, Frank-Wolfe and subgradient learners is exact for the relaxed task, and
    features and losses are bounded, which is what their convergence theorems ask for. *)
Theorem C87_oracle :
  forall b meth g cw Xs Ys, (0 < g_states g)%nat -> length cw = g_states g -> Forall2 (graph_sample g) Xs Ys ->
    (forall x, In x Xs -> solves_relaxation b meth (mrows (gx_features x)) (gx_edges x)) ->
    oracle_exact (relaxed_smodel b meth g cw) (relaxed_task g cw) (g_size g) (combine Xs (map RLabels Ys)).
Proof. exact relaxed_oracle. Qed.
Theorem C87_bounds :
  forall g cw Xs Ys, (0 < g_states g)%nat -> Forall2 (graph_sample g) Xs Ys ->
    exists R2 L, 0 < R2 /\ forall p r, In p (combine Xs (map RLabels Ys)) -> t_label (relaxed_task g cw) (fst p) r ->
      normsq (vsub (t_feat (relaxed_task g cw) (fst p) (snd p)) (t_feat (relaxed_task g cw) (fst p) r)) <= R2 /\
      t_loss (relaxed_task g cw) (snd p) r <= L.
Proof. exact sample_bounds. Qed.
(** The one-slack learner with 'lp': after enough iterations it has minimised the relaxed objective up to its tolerance,
    and the loss of its predictions on the training set is at most twice the sum of the relaxed hinges reached. *)
Theorem C87_one_slack :
  forall b g cw ceq solve prm Xs Ys R2 L st reason,
    let K := o_C prm * ofN (length Xs) in let T := relaxed_task g cw in let m := relaxed_smodel b (Name "lp") g cw in
    let S := combine Xs (map RLabels Ys) in
    finds_optima (b_lp b) -> qp_exact solve -> (0 < g_states g)%nat -> length cw = g_states g ->
    (forall s, (s < g_states g)%nat -> 0 <= get1 cw s) -> (0 < length Xs)%nat -> Forall2 (graph_sample g) Xs Ys ->
    0 < o_C prm -> 0 < o_tol prm -> 0 < R2 -> o_window prm = 0%nat -> o_neg prm = None ->
    (forall p r, In p S -> t_label T (fst p) r ->
       normsq (vsub (t_feat T (fst p) (snd p)) (t_feat T (fst p) r)) <= R2 /\ t_loss T (snd p) r <= L) ->
    K * L + qp_reg * (K * K) / (1 + 1) < ofN (o_max_iter prm - 1) * (gain K (o_tol prm) R2 - qp_reg * (K * K) / (1 + 1)) ->
    os_fit ceq solve prm (base_bmodel m) None Xs (map RLabels Ys) Cold = Ok (st, reason) ->
    exists hs preds, hinges T (o_w st) S hs /\
      (forall w' hs', length w' = g_size g -> hinges T w' S hs' ->
         primal_value (o_C prm) (o_w st) hs <= primal_value (o_C prm) w' hs' + (K * o_tol prm + qp_reg * (K * K))) /\
      predicts m (o_w st) Xs preds /\ loss_sum (g_task g cw) Ys preds <= (1 + 1) * lsum hs.
Proof. exact relaxed_one_slack. Qed.
(** The n-slack learner compares answers by their unary marginals only.  An answer with the unary marginals of a known one
    but other pairwise marginals is dropped as a duplicate, although it is the exact answer, its constraint is violated
    by 6, and the known constraint is not violated at all: the learner would stop here. *)
Theorem C87_n_slack_duplicates_refuted :
  forall mixed prm b meth, let m := relaxed_smodel b meth ex48_g ex48_cw in
    sm_laug m ex48_x (RLabels ex48_y) ex48_wb = Ok ex48_rb ->
    t_label ex48_T ex48_x ex48_rb /\ is_hinge ex48_T ex48_wb ex48_x (RLabels ex48_y) ex48_hinge_b /\ valid_con ex48_T (ex48_x, RLabels ex48_y) ex48_con /\
    exists delta loss, find_constraint m ex48_x (RLabels ex48_y) ex48_wb None true = Ok (ex48_rb, delta, ex48_hinge_b, loss) /\
      snd ex48_con - dot ex48_wb (snd (fst ex48_con)) = 0 /\
      gather (plain_eqb mixed) prm ex48_wb [(0%nat, (ex48_rb, delta, ex48_hinge_b, loss))] [[ex48_con]] 0 0 = Ok ([[ex48_con]], 0%nat, ex48_hinge_b).
Proof.
  intros mixed prm b meth m E. split; [apply ex48_ok; auto|]. split; [apply ex48_hinges|]. split; [split; [apply ex48_ok; auto|split; reflexivity]|].
  exact (ex48_duplicate mixed prm b meth E).
Qed.

(** ** hypotheses *)
(** There is a function that finds optima of linear programs, and the answer above is given by a backend. *)
Theorem C87_solver_exists : exists solve, finds_optima solve.
Proof. exact solver_exists. Qed.
Example C87_met :
  graph_sample ex48_g ex48_x ex48_y /\ length ex48_wb = g_size ex48_g /\ length ex48_cw = g_states ex48_g /\
  edge_scores ex48_g ex48_wb 0 0 1 + edge_scores ex48_g ex48_wb 0 1 0 <= edge_scores ex48_g ex48_wb 0 0 0 + edge_scores ex48_g ex48_wb 0 1 1 /\
  t_label ex48_T ex48_x ex48_ra /\ is_hinge ex48_T ex48_wa ex48_x (RLabels ex48_y) (Q2Qc (7 # 2)) /\ ex48_hinge_b = ofZ 6 /\
  acyclic (chain_edges 3) /\ graph_edges 3 (chain_edges 3).
Proof.
  split; [exact ex48_sample|]. split; [reflexivity|]. split; [reflexivity|]. split; [vm_compute; discriminate|].
  split; [apply ex48_ok; auto|]. split; [apply ex48_hinges|]. split; [reflexivity|]. split; [apply chain_acyclic|apply ViterbiProofs.chain_edges_ok].
Qed.
Example C87_answer_met :
  sm_laug (relaxed_smodel (ex48_b (repeat ex48_half 6 ++ concat (repeat [ex48_half; 0; 0; ex48_half] 3))) (Name "lp") ex48_g ex48_cw)
    ex48_x (RLabels ex48_y) ex48_wb = Ok ex48_rb.
Proof. exact ex48_answer. Qed.

Print Assumptions C87_implements.
Print Assumptions C87_score.
Print Assumptions C87_relaxation_has_an_optimum.
Print Assumptions C87_lp_has_an_optimum.
Print Assumptions C87_lp_solves.
Print Assumptions C87_ad3_solves.
Print Assumptions C87_exact_labels_solve.
Print Assumptions C87_max_product_solves.
Print Assumptions C87_loss_augmented.
Print Assumptions C87_inference.
Print Assumptions C87_upper_bound.
Print Assumptions C87_equal_on_forests.
Print Assumptions C87_equal_when_attractive.
Print Assumptions C87_equal_in_general_refuted.
Print Assumptions C87_relaxed_prediction.
Print Assumptions C87_rounded_prediction.
Print Assumptions C87_rounding.
Print Assumptions C87_oracle.
Print Assumptions C87_bounds.
Print Assumptions C87_one_slack.
Print Assumptions C87_n_slack_duplicates_refuted.
Print Assumptions C87_solver_exists.

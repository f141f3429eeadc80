(** C04-C07: Viterbi, acyclicity test, tree and loopy max-product. *)
From Verif Require Import Model.ChainCRF Spec.Energy Spec.SolverSpec Spec.GraphTheory
  Proofs.Arrays Proofs.EnergyProofs Proofs.GraphCRFProofs Proofs.LossProofs Proofs.CRFProofs
  Proofs.ViterbiProofs Proofs.SearchProofs Proofs.MaxProdProofs Proofs.ChainProofs.

(** C04. On a chain, inference_max_product returns a labelling of best score. *)
Theorem C04_max_product_exact_on_chains :
  forall (n k : nat) (U : mat) (p : pairwise) (max_iter : nat) (damping tol : Qc),
    mat_ok U -> mrows U = n -> mcols U = k -> (0 < n)%nat -> (0 < k)%nat -> pw_shape p (n - 1) k ->
    exists y, inference_max_product U p (chain_edges n) max_iter damping tol = Ok y /\
      maximiser n k (chain_edges n) (mget U) (pw_table p) y.
Proof. exact max_product_chain. Qed.

(** C04, ChainCRF from end to end. *)
Theorem C04_chaincrf_inference_exact :
  forall (g : graph_crf) (x : mat) (w : list Qc),
    mat_ok x -> mcols x = g_features g -> (0 < mrows x)%nat -> (0 < g_states g)%nat -> length w = g_size g ->
    exists y psi, chain_inference g x w = Ok y /\ labelling (mrows x) (g_states g) y /\
      g_joint_feature g (chain_x x) (Discrete y) = Ok psi /\
      forall y' psi', labelling (mrows x) (g_states g) y' ->
        g_joint_feature g (chain_x x) (Discrete y') = Ok psi' -> dot w psi' <= dot w psi.
Proof. exact chain_inference_exact. Qed.

Theorem C04_make_chain_edges : forall n, make_chain_edges n = chain_edges n.
Proof. exact make_chain_edges_chain. Qed.

(** Not exact on every input accepted by is_chain: comparing with numpy broadcasting, it takes
    two parallel edges between two nodes for a chain, and the second table is ignored. *)
Theorem C04_parallel_edges_taken_for_chain_refuted :
  exists U p edges y, mat_ok U /\ pw_shape p (length edges) 2 /\ graph_edges (mrows U) edges /\ mcols U = 2%nat /\
    inference_max_product U p edges 30 (Q2Qc (1 # 2)) default_tol = Ok y /\
    exists y', labelling (mrows U) 2 y' /\
      score (mrows U) edges (mget U) (pw_table p) (lab y) < score (mrows U) edges (mget U) (pw_table p) (lab y').
Proof. exact parallel_edges_refuted. Qed.

(** Graphs without edges: one node is solved, two nodes are taken for a chain and read outside
    the array of tables, three or more raise ValueError (np.max of an empty array). *)
Theorem C04_no_edges :
  forall (n k : nat) (U : mat) (p : pairwise) (max_iter : nat) (damping tol : Qc),
    mat_ok U -> mrows U = n -> mcols U = k -> (0 < k)%nat -> pw_shape p 0 k ->
    (n = 1%nat -> exists y, inference_max_product U p [] max_iter damping tol = Ok y /\
                    maximiser n k [] (mget U) (pw_table p) y) /\
    (n = 0%nat \/ n = 2%nat -> inference_max_product U p [] max_iter damping tol = Err OutOfBounds) /\
    ((3 <= n)%nat -> inference_max_product U p [] max_iter damping tol = Err ValueError).
Proof. exact max_product_no_edges. Qed.

(** C05. *)
Theorem C05_is_forest_decides_acyclicity :
  forall (edges : list (nat * nat)) (nv : option nat),
    edges <> [] -> match nv with Some n => graph_edges n edges | None => True end ->
    exists b, is_forest edges nv = Ok b /\ (b = true <-> acyclic edges).
Proof. exact is_forest_correct. Qed.
Theorem C05_no_edges_rejected :
  forall nv, match nv with Some n => (0 < n)%nat | None => True end -> is_forest [] nv = Err ValueError.
Proof. exact is_forest_empty. Qed.

(** C06. On a forest every label is the label of that node in some labelling of best score; so a
    unique maximiser is found. *)
Theorem C06_tree_max_product_max_marginals :
  forall (n k : nat) (U : mat) (p : pairwise) (edges : list (nat * nat)) (max_iter : nat) (damping tol : Qc),
    mrows U = n -> mcols U = k -> (0 < k)%nat -> pw_shape p (length edges) k ->
    graph_edges n edges -> acyclic edges -> edges <> [] -> is_chain edges n = false ->
    exists y, inference_max_product U p edges max_iter damping tol = Ok y /\ labelling n k y /\
      forall v, (v < n)%nat -> exists y', maximiser n k edges (mget U) (pw_table p) y' /\ lab y' v = lab y v.
Proof. exact max_product_forest. Qed.
Theorem C06_tree_max_product_unique_map :
  forall (n k : nat) (U : mat) (pws : list (list (list Qc))) (edges : list (nat * nat)) (ys : list nat),
    mrows U = n -> mcols U = k -> (0 < k)%nat -> graph_edges n edges -> acyclic edges ->
    maximiser n k edges (mget U) (fun e => get2 (nth e pws [])) ys ->
    (forall z, maximiser n k edges (mget U) (fun e => get2 (nth e pws [])) z -> z = ys) ->
    tree_max_product U pws edges = Ok ys.
Proof. exact tree_unique_map. Qed.
Theorem C06_tree_max_product_with_ties_refuted :
  exists U p edges y, mat_ok U /\ pw_shape p (length edges) 2 /\ graph_edges (mrows U) edges /\ mcols U = 2%nat /\
    acyclic edges /\ inference_max_product U p edges 30 (Q2Qc (1 # 2)) default_tol = Ok y /\
    exists y', labelling (mrows U) 2 y' /\
      score (mrows U) edges (mget U) (pw_table p) (lab y) < score (mrows U) edges (mget U) (pw_table p) (lab y').
Proof. exact tree_ties_refuted. Qed.

(** C07. *)
Theorem C07_loopy_max_product :
  forall (U : mat) (pws : list (list (list Qc))) (edges : list (nat * nat)) (n k max_iter : nat) (damping tol : Qc),
    mrows U = n -> mcols U = k -> (0 < k)%nat -> graph_edges n edges ->
    exists st y,
      loopy_iter max_iter k U damping tol edges pws
        (Loopy (fun _ => vzero k) (fun _ => vzero k) (fun _ => vzero k) 0) = Ok st /\
      (forall v s, (s < k)%nat -> get1 (lp_in st v) s = edge_terms edges (lp_fwd st) (lp_bwd st) v s) /\
      iterative_max_product U pws edges max_iter damping tol = Ok y /\ labelling n k y /\
      forall v s, (v < n)%nat -> (s < k)%nat ->
        edge_terms edges (lp_fwd st) (lp_bwd st) v s + mget U v s <=
        edge_terms edges (lp_fwd st) (lp_bwd st) v (lab y v) + mget U v (lab y v).
Proof. exact loopy_ok. Qed.
(** Any graph with at least one edge gets one label in range per node. *)
Theorem C07_max_product_always_labels :
  forall (n k : nat) (U : mat) (p : pairwise) (edges : list (nat * nat)) (max_iter : nat) (damping tol : Qc),
    mat_ok U -> mrows U = n -> mcols U = k -> (0 < k)%nat -> pw_shape p (length edges) k ->
    graph_edges n edges -> edges <> [] ->
    exists y, inference_max_product U p edges max_iter damping tol = Ok y /\ labelling n k y.
Proof. exact max_product_labelling. Qed.

(** ** Concrete cases *)
Definition ex_U : mat := Mat 4 2 [[ofZ 3; 0]; [0; ofZ 3]; [ofZ 2; 0]; [0; 1]].
Definition ex_P : pairwise := Pw3 3 2 2 [[[1; 0]; [0; 1]]; [[0; ofZ 2]; [1; 0]]; [[ofZ 3; 0]; [0; 0]]].
Definition ex_tree : list (nat * nat) := [(1, 0); (1, 2); (3, 1)]%nat.
Example C04_hypotheses_met : mat_ok ex_U /\ pw_shape ex_P (4 - 1) 2.
Proof. split. apply mat_okb_ok; reflexivity. repeat split. Qed.
Example C04_value : inference_max_product ex_U ex_P (chain_edges 4) 30 0 0 = Ok [0; 1; 0; 0]%nat.
Proof. vm_compute. reflexivity. Qed.
Example C06_hypotheses_met :
  graph_edges 4 ex_tree /\ acyclic ex_tree /\ ex_tree <> [] /\ is_chain ex_tree 4 = false.
Proof.
  split. repeat constructor. split.
  { destruct (is_forest_correct ex_tree None) as [b [E H]]; [discriminate|exact I|]. apply H. vm_compute in E. congruence. }
  split. discriminate. reflexivity.
Qed.
Example C06_value : inference_max_product ex_U ex_P ex_tree 30 0 0 = Ok [0; 1; 0; 1]%nat.
Proof. vm_compute. reflexivity. Qed.
Example C07_cyclic_value :
  is_forest [(0, 1); (1, 2); (2, 0)]%nat (Some 4%nat) = Ok false /\
  inference_max_product ex_U ex_P [(0, 1); (1, 2); (2, 0)]%nat 5 (Q2Qc (1 # 2)) 0 = Ok [0; 1; 0; 1]%nat.
Proof. split; vm_compute; reflexivity. Qed.

Print Assumptions C04_max_product_exact_on_chains.
Print Assumptions C04_chaincrf_inference_exact.
Print Assumptions C04_make_chain_edges.
Print Assumptions C04_parallel_edges_taken_for_chain_refuted.
Print Assumptions C04_no_edges.
Print Assumptions C05_is_forest_decides_acyclicity.
Print Assumptions C05_no_edges_rejected.
Print Assumptions C06_tree_max_product_max_marginals.
Print Assumptions C06_tree_max_product_unique_map.
Print Assumptions C06_tree_max_product_with_ties_refuted.
Print Assumptions C07_loopy_max_product.
Print Assumptions C07_max_product_always_labels.

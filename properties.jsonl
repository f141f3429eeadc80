{"id": "C01", "title": "GraphCRF scores are linear in the joint feature", "statement": "For GraphCRF, directed or undirected, numpy.dot(w, joint_feature(x, y)) equals the energy that inference maximises, i.e. the sum over nodes of the unary potential of the node's label plus the sum over edges of the pairwise potential of the two end labels, both for integer labellings y and for relaxed (unary marginals, pairwise marginals) solutions.", "quantifier": "every graph (any number of nodes and edges, self loops and duplicate edges included), number of states and features, feature matrix, weight vector of the right size, and labelling in range", "why_tests_cant": "Learning optimises dot(w, joint_feature) while inference maximises potentials; a test compares them for a few random graphs, but the two code paths must agree for every graph, labelling and weight.", "anchors": ["pystruct/models/graph_crf.py:GraphCRF._get_unary_potentials", "pystruct/models/graph_crf.py:GraphCRF._get_pairwise_potentials", "pystruct/models/graph_crf.py:GraphCRF.joint_feature", "pystruct/inference/common.py:compute_energy"]}
{"id": "C02", "title": "joint_feature has the announced length", "statement": "For every valid sample, the vector returned by joint_feature has exactly size_joint_feature entries, so it can be added to and multiplied with w; weight vectors of another size are rejected with ValueError.", "quantifier": "every model family (GraphCRF, EdgeFeatureGraphCRF, MultiLabelClf, MultiClassClf, NodeTypeEdgeFeatureGraphCRF), every size parameter and every valid (x, y)", "why_tests_cant": "Size formulas and array constructions are written separately; unit tests check a handful of parameter combinations.", "anchors": ["pystruct/models/graph_crf.py:GraphCRF._set_size_joint_feature", "pystruct/models/edge_feature_graph_crf.py:EdgeFeatureGraphCRF._set_size_joint_feature", "pystruct/models/crf.py:CRF._check_size_w"]}
{"id": "C03", "title": "Loss augmentation adds exactly the loss", "statement": "In loss_augmented_inference of the CRF models, the potentials given to the solver score every candidate labelling y' by its energy plus loss(y, y') (class weights included), so an exact solver returns a labelling maximising dot(w, joint_feature(x, y')) + loss(y, y').", "quantifier": "every graph, weight vector, class weights, ground truth y and candidate y' in range", "why_tests_cant": "The separation oracle must be right for all y', not only the one a test's solver happens to return.", "anchors": ["src/utils.pyx:loss_augment_unaries", "pystruct/models/crf.py:CRF.loss_augmented_inference", "pystruct/models/base.py:StructuredModel.loss"]}
{"id": "C04", "title": "Max-product inference is exact on chains", "statement": "If the edge list is the chain (0,1),(1,2),..., inference_max_product (and hence ChainCRF with inference_method='max-product') returns a labelling of the right length with labels in range whose energy is at least the energy of every labelling.", "quantifier": "every chain length >= 1, number of states >= 1, unary potentials and (shared or per-edge) pairwise potentials", "why_tests_cant": "The number of labellings is exponential and the lengths unbounded; tests compare with brute force on tiny chains.", "anchors": ["pystruct/inference/_viterbi.pyx:viterbi", "pystruct/inference/maxprod.py:is_chain", "pystruct/inference/maxprod.py:inference_max_product", "pystruct/models/chain_crf.py:make_chain_edges"]}
{"id": "C05", "title": "is_forest decides acyclicity", "statement": "is_forest(edges, n_vertices) is True exactly when the undirected multigraph has no cycle (a self loop or a repeated edge counts as a cycle), for a non-empty edge list; an empty edge list raises ValueError (when n_vertices is None or at least 1).", "quantifier": "every non-empty edge list and every n_vertices larger than all end points", "why_tests_cant": "Graphs are unbounded and the decision steers which inference algorithm runs.", "anchors": ["pystruct/utils/graph_functions.py:is_forest"]}
{"id": "C06", "title": "Tree max-product finds the MAP labelling when it is unique", "statement": "On a forest, tree_max_product returns labels in range, and when the energy has a unique maximiser it returns that maximiser. With ties the per-node argmax can return a labelling that is not a maximiser (counter-example proved).", "quantifier": "every forest, number of states, potentials", "why_tests_cant": "Needs an argument over all labellings and all traversal orders.", "anchors": ["pystruct/inference/maxprod.py:tree_max_product"]}
{"id": "C07", "title": "Loopy max-product is well behaved", "statement": "iterative_max_product always stops after at most max_iter sweeps and returns one label per node in range(n_states), for arbitrary (cyclic, multi-edge) graphs, damping and tolerance; the incoming-message table used for decoding always equals the sum of the messages into each node.", "quantifier": "every graph, potentials, damping, tolerance and iteration bound", "why_tests_cant": "Invariant over unboundedly many message updates.", "anchors": ["pystruct/inference/maxprod.py:iterative_max_product"]}
{"id": "C08", "title": "The LP relaxation encodes the MAP problem", "statement": "In lp_general_graph, the equality constraints built for cvxopt have the announced number of rows, accept the one-hot encoding of every labelling with objective equal to minus its energy, imply the one marginalisation row per edge that the code leaves out, and have no other 0/1 solutions; so the LP value bounds the best energy and an integral LP optimum decodes to an energy maximiser. solve_lp on negated potentials is the relaxed inference_lp with one matrix for all edges.", "quantifier": "every graph, number of states >= 1, potentials, and every (fractional) feasible point", "why_tests_cant": "Feasible set is infinite; index arithmetic errors only show for particular edges/states.", "anchors": ["pystruct/inference/linear_programming.py:lp_general_graph", "pystruct/inference/linear_programming.py:solve_lp", "pystruct/inference/inference_methods.py:inference_lp"]}
{"id": "C09", "title": "Unary inference is exact when pairwise terms cannot matter", "statement": "inference_unaries returns per-node argmax labels in range; this maximises the energy whenever there are no edges or the pairwise potentials are identically constant.", "quantifier": "every unary matrix, edge list and pairwise potentials of the stated kind", "why_tests_cant": "All inputs.", "anchors": ["pystruct/inference/inference_methods.py:inference_unaries"]}
{"id": "C10", "title": "compute_energy is the labelling score", "statement": "compute_energy on an integer labelling equals the sum of selected unary and pairwise potentials; the shared (n_states, n_states) pairwise form gives the same result as repeating it per edge; other shapes raise ValueError.", "quantifier": "every graph, potentials, labelling", "why_tests_cant": "All inputs, including every shape error.", "anchors": ["pystruct/inference/common.py:compute_energy", "pystruct/inference/common.py:_validate_params"]}
{"id": "C11", "title": "expand_sym / compress_sym", "statement": "expand_sym of a vector of length k(k+1)/2 is a symmetric k by k matrix; compress_sym(., make_symmetric=False) is its exact inverse on symmetric matrices in both directions; compress_sym with make_symmetric=True is the adjoint of expand_sym: sum(expand_sym(v) * M) = dot(v, compress_sym(M)) for every matrix M; and compress_sym(expand_sym(v)) with the default make_symmetric=True doubles the off-diagonal entries rather than inverting.", "quantifier": "every k, vector and square matrix", "why_tests_cant": "Every size; the triangular index arithmetic goes wrong only for particular sizes.", "anchors": ["pystruct/utils/inference.py:expand_sym", "pystruct/utils/inference.py:compress_sym"]}
{"id": "C12", "title": "make_grid_edges lists exactly the neighbouring pixel pairs", "statement": "make_grid_edges(x, neighborhood=4|8) returns every pair of grid-adjacent pixels (4: horizontal/vertical; 8: also diagonal) exactly once and nothing else, each as (row-major index, index), for every image size; any other neighborhood raises ValueError; with return_lists=True concatenating the lists gives the same edges.", "quantifier": "every height, width and neighbourhood argument", "why_tests_cant": "Every image size including one-row, one-column and empty images.", "anchors": ["pystruct/utils/graph.py:make_grid_edges"]}
{"id": "C13", "title": "DirectionalGridCRF edge features match the model size only for 4-neighbourhoods", "statement": "With neighborhood=4, edge_list_to_features yields one one-hot row per edge marking its direction, and the joint feature has length size_joint_feature. With neighborhood=8 the number of feature columns (2) differs from n_edge_features (4) for every grid, so the joint feature has the wrong length.", "quantifier": "every grid size", "why_tests_cant": "Every image size.", "anchors": ["pystruct/models/grid_crf.py:DirectionalGridCRF", "pystruct/utils/graph.py:edge_list_to_features"]}
{"id": "C14", "title": "EdgeFeatureGraphCRF scores agree with inference on weights a learner can reach", "statement": "For EdgeFeatureGraphCRF, dot(w, joint_feature(x, y)) equals the energy of y under the potentials for every w when no symmetric/antisymmetric edge features are declared; with such declarations it holds for every w that is a linear combination of joint features (what every learner produces from a zero start), and fails for arbitrary w (counter-example proved).", "quantifier": "every graph, features, edge features, labelling, weight vector (resp. linear combination of joint features of arbitrary samples)", "why_tests_cant": "Reachable weights are an unbounded history of updates.", "anchors": ["pystruct/models/edge_feature_graph_crf.py:EdgeFeatureGraphCRF.joint_feature", "pystruct/models/edge_feature_graph_crf.py:EdgeFeatureGraphCRF._get_pairwise_potentials"]}
{"id": "C15", "title": "BinaryClf inference and loss-augmented inference", "statement": "BinaryClf.inference returns the label in {-1,+1} with the larger dot(w, joint_feature). loss_augmented_inference returns a maximiser of score plus 0/1 loss unless dot(x, w) equals y exactly, in which case it returns 0, which is not a label, find_constraint then raises ValueError, and the slack computed on the batch path exceeds the true slack by 1/2.", "quantifier": "every feature vector, weight vector and label", "why_tests_cant": "Ties are measure zero in random tests.", "anchors": ["pystruct/models/unstructured_svm.py:BinaryClf"]}
{"id": "C16", "title": "MultiClassClf single and batch APIs are exact and agree", "statement": "inference and loss_augmented_inference of MultiClassClf return a class maximising dot(w, joint_feature(x, y')) (plus class-weighted 0/1 loss), the smallest such class on ties, and batch_joint_feature, batch_inference, batch_loss_augmented_inference and batch_loss agree with the single-sample methods.", "quantifier": "every number of classes, features, samples, weights, class weights", "why_tests_cant": "Batch code uses different vectorised index tricks; agreement needed for all inputs.", "anchors": ["pystruct/models/unstructured_svm.py:MultiClassClf", "src/utils.pyx:crammer_singer_joint_feature"]}
{"id": "C17", "title": "MultiClassClf rescale_C is a per-sample rescaling", "statement": "With rescale_C=True, the structured hinge of a sample equals class_weight[y] times the unweighted structured hinge, joint_feature scales with class_weight[y_true], loss-augmented inference still maximises the rescaled objective when class weights are positive, and leaving out y_true raises ValueError.", "quantifier": "all inputs with positive class weights", "why_tests_cant": "All inputs.", "anchors": ["pystruct/models/unstructured_svm.py:MultiClassClf.joint_feature", "pystruct/models/unstructured_svm.py:MultiClassClf.loss_augmented_inference"]}
{"id": "C18", "title": "MultiLabelClf scores are linear in the joint feature", "statement": "For MultiLabelClf, dot(w, joint_feature(x, y)) equals the energy of the binary label vector y under the potentials used by inference, for every edge set over the labels, and the joint feature has the announced size.", "quantifier": "every number of labels, features, edge set, weight vector, binary label vector", "why_tests_cant": "All inputs.", "anchors": ["pystruct/models/multilabel_svm.py:MultiLabelClf"]}
{"id": "C19", "title": "The Hamming loss is a loss", "statement": "For non-negative class weights, 0 <= loss(y, y') <= max_loss(y) and loss(y, y) = 0; with positive weights loss(y, y') = 0 only if y = y'; continuous_loss of a one-hot relaxed prediction equals loss of the labelling and for any prediction whose rows are distributions it lies between 0 and max_loss. Class weights default to ones, for which loss and max_loss are the unweighted ones; given ones must be one per class.", "quantifier": "every labelling pair, class weights and relaxed prediction", "why_tests_cant": "All inputs.", "anchors": ["pystruct/models/base.py:StructuredModel.loss", "pystruct/models/base.py:StructuredModel.max_loss", "pystruct/models/base.py:StructuredModel.continuous_loss", "pystruct/models/base.py:StructuredModel._set_class_weight"]}
{"id": "C20", "title": "score lies in [0, 1] and is 1 exactly for perfect prediction", "statement": "BaseSSVM.score is between 0 and 1 whenever the total max_loss is positive and class weights are non-negative; with positive weights it equals 1 iff every training label is predicted correctly.", "quantifier": "every model with the Hamming loss, data set and prediction", "why_tests_cant": "All datasets.", "anchors": ["pystruct/learners/ssvm.py:BaseSSVM.score"]}
{"id": "C21", "title": "The training objective bounds the training loss", "statement": "find_constraint returns slack >= 0; if loss-augmented inference is exact the slack is the maximum over all y' of loss(y,y') - dot(w, joint_feature(x,y) - joint_feature(x,y')), and it is at least the loss of the prediction inference(x, w); hence objective_primal >= C * total training loss.", "quantifier": "every model given by joint_feature/loss/inference functions on a finite label set, every weight, sample, C >= 0", "why_tests_cant": "All weights and label sets.", "anchors": ["pystruct/utils/inference.py:find_constraint", "pystruct/utils/inference.py:objective_primal"]}
{"id": "C22", "title": "objective_primal does not depend on the variant", "statement": "objective_primal gives the same value for variant 'one_slack' and 'n_slack', is at least dot(w,w)/2, and is convex in w when inference is exact.", "quantifier": "every model, data set, weights", "why_tests_cant": "All inputs and all weights.", "anchors": ["pystruct/utils/inference.py:objective_primal"]}
{"id": "C23", "title": "N-slack dual objective is a lower bound, negativity constraints hold", "statement": "For any dual point the N-slack QP accepts (a >= 0, per-sample sums <= C, negativity rows), the weight vector w = a.Psi satisfies w[i] <= 0 for every declared index, and the reported dual objective is at most the primal objective of every weight vector respecting the constraints, provided every working-set constraint is the (djoint_feature, loss) of some labelling.", "quantifier": "every working set, dual feasible point, competitor weight vector", "why_tests_cant": "All working sets arising in any training history.", "anchors": ["pystruct/learners/n_slack_ssvm.py:NSlackSSVM._solve_n_slack_qp"]}
{"id": "C24", "title": "1-slack stopping gives the tolerance promised", "statement": "For any dual-feasible point of the 1-slack QP the reported objective is at most the primal objective of every weight vector (respecting negativity constraints). If fit stops because the new constraint violates the current slack by less than tol, the exact-inference primal objective of the returned w is at most the value of the current cutting-plane problem at w plus C*n*tol.", "quantifier": "every working set, data set, tolerance", "why_tests_cant": "All working sets and histories.", "anchors": ["pystruct/learners/one_slack_ssvm.py:OneSlackSSVM._solve_1_slack_qp", "pystruct/learners/one_slack_ssvm.py:OneSlackSSVM.fit", "pystruct/learners/one_slack_ssvm.py:OneSlackSSVM._check_bad_constraint"]}
{"id": "C25", "title": "1-slack pruning keeps bookkeeping aligned and never empties the working set", "statement": "Over any sequence of QP solutions, OneSlackSSVM keeps exactly one dual-variable history per working-set constraint, removes the two in step, never removes the strongest non-initial constraint when 0 <= inactive_threshold <= 1 (so the set never becomes empty), and removes only constraints whose recent dual variables are all below inactive_threshold times the strongest one. The initial all-zero constraint can be removed, and the histories are never truncated to the window (both proved).", "quantifier": "every sequence of constraint additions and dual solutions, every window and threshold", "why_tests_cant": "Invariant over unbounded histories.", "anchors": ["pystruct/learners/one_slack_ssvm.py:OneSlackSSVM.prune_constraints"]}
{"id": "C26", "title": "N-slack pruning never drops an active constraint", "statement": "NSlackSSVM.prune_constraints keeps one inactivity counter per constraint of every sample, only removes a constraint in a round where its own dual variable is below inactive_threshold*C and only after more than inactive_window such rounds in total; the counter is cumulative, so the rounds need not be consecutive (counter-example to the documented reading proved).", "quantifier": "every sequence of rounds, constraints per sample, dual solutions", "why_tests_cant": "Invariant over unbounded histories and alignment of a flat vector with nested lists.", "anchors": ["pystruct/learners/n_slack_ssvm.py:NSlackSSVM.prune_constraints"]}
{"id": "C27", "title": "1-slack inference cache", "statement": "The per-sample inference cache never contains two equal results and never holds more than inference_cache + 1 results (not inference_cache: counter-example proved); the constraint assembled from the cache uses, for every sample, a cached result maximising dot(w, joint_feature) + loss among the cached ones.", "quantifier": "every sequence of cache updates and queries", "why_tests_cant": "Invariant over unbounded histories.", "anchors": ["pystruct/learners/one_slack_ssvm.py:OneSlackSSVM._update_cache", "pystruct/learners/one_slack_ssvm.py:OneSlackSSVM._constraint_from_cache"]}
{"id": "C28", "title": "Frank-Wolfe keeps a dual-feasible point for every sampling schedule", "statement": "In block-coordinate Frank-Wolfe from a fresh start, for every sequence of sample indices ('perm', 'rnd' or 'seq') and any loss-augmented inference answers, w and l are the sums of the per-sample blocks and each block is a convex combination of (C*(psi(x,y)-psi(x,y')), loss/n) pairs; therefore the dual objective it reports never exceeds the primal objective of any weight vector. Averaged iterates keep the property.", "quantifier": "every schedule of samples, oracle answers, data set, iteration count", "why_tests_cant": "Invariant over all schedules and histories.", "anchors": ["pystruct/learners/frankwolfe_ssvm.py:FrankWolfeSSVM._frank_wolfe_bc", "pystruct/learners/frankwolfe_ssvm.py:FrankWolfeSSVM._calc_dual_gap"]}
{"id": "C29", "title": "Frank-Wolfe with line search never decreases the dual objective", "statement": "With line_search=True each block update (bc) and each batch update does not decrease -|w|^2/2 + C*n*l, for every oracle answer and sample order, despite the eps in the denominator and the clipping to [0,1].", "quantifier": "every state, oracle answer and schedule", "why_tests_cant": "All states.", "anchors": ["pystruct/learners/frankwolfe_ssvm.py:FrankWolfeSSVM._frank_wolfe_bc", "pystruct/learners/frankwolfe_ssvm.py:FrankWolfeSSVM._frank_wolfe_batch"]}
{"id": "C30", "title": "Weight averaging computes the advertised weighted means", "statement": "After T updates from a fresh learner, the weights exposed by SubgradientSSVM are w_T (no averaging), sum_j j*w_j / sum_j j ('linear') or sum_j j^2*w_j / sum_j j^2 ('squared'); FrankWolfeSSVM with do_averaging exposes the linear-weighted mean of its iterates; the result does not depend on the initial exposed weights. Fitting a second time without warm_start continues from the previous weights and step counter (proved).", "quantifier": "every number and sequence of updates", "why_tests_cant": "Closed form for all T.", "anchors": ["pystruct/learners/subgradient_ssvm.py:SubgradientSSVM._solve_subgradient", "pystruct/learners/frankwolfe_ssvm.py:FrankWolfeSSVM._frank_wolfe_bc"]}
{"id": "C31", "title": "Frank-Wolfe duality-gap report equals the true primal objective", "statement": "_calc_dual_gap's primal value (dual value plus gap) equals objective_primal at the exposed weights when every sample's loss-augmented score is attained by the oracle (exact inference), and the gap is non-negative for every dual-feasible state.", "quantifier": "every state, data set, exact oracle", "why_tests_cant": "All states.", "anchors": ["pystruct/learners/frankwolfe_ssvm.py:FrankWolfeSSVM._calc_dual_gap", "pystruct/utils/inference.py:objective_primal"]}
{"id": "C32", "title": "Subgradient steps follow a subgradient of the primal objective", "statement": "With exact loss-augmented inference, the full-batch update direction of SubgradientSSVM is -1/(C*n) times a subgradient of the primal objective at w: P(w') >= P(w) + <g, w'-w> for every w'.", "quantifier": "every data set, weight vectors w and w'", "why_tests_cant": "All weight vectors.", "anchors": ["pystruct/learners/subgradient_ssvm.py:SubgradientSSVM._sequential_learning"]}
{"id": "C33", "title": "Structured perceptron mistake bound", "statement": "If some unit-margin weight vector separates the data (dot(u, psi(x_i,y_i)-psi(x_i,y')) >= gamma > 0 for every y' with non-zero loss) and |psi(x_i,y_i)-psi(x_i,y')|^2 <= R2, then online StructuredPerceptron with decay_exponent=0 and exact inference makes at most R2*|u|^2/gamma^2 updates over any number of epochs and any sample order.", "quantifier": "every separable data set, order of presentation, number of epochs", "why_tests_cant": "Bound over unbounded runs.", "anchors": ["pystruct/learners/structured_perceptron.py:StructuredPerceptron.fit"]}
{"id": "C34", "title": "Structured perceptron stopping and averaging", "statement": "If the online perceptron stops early its final unaveraged weights have zero loss on every training sample; with averaging the exposed weights are the arithmetic mean of the weights after each presentation since averaging started; if it stops before the averaging epoch is reached the exposed weights are still all zero (proved).", "quantifier": "every data set, oracle, number of epochs, averaging start", "why_tests_cant": "All runs.", "anchors": ["pystruct/learners/structured_perceptron.py:StructuredPerceptron.fit"]}
{"id": "C35", "title": "LatentGraphCRF.latent always explains the given labels", "statement": "latent(x, y, w) returns a latent labelling h with label_from_latent(h) == y for every y in range, whatever the inference method returns, provided every label has at least one latent state.", "quantifier": "every inference result, x, w, y and numbers of states per label", "why_tests_cant": "Must hold for arbitrary (approximate) solver output.", "anchors": ["pystruct/models/latent_graph_crf.py:LatentGraphCRF.latent"]}
{"id": "C36", "title": "Latent state layout and k-means initialisation are consistent", "statement": "label_from_latent maps exactly the states in label l's block to l, blocks partition range(n_states) in label order, and init_latent (k-means) returns latent labels with label_from_latent(h) == y for any clustering outcome.", "quantifier": "every list of numbers of states per label, data, clustering outcome", "why_tests_cant": "All layouts and clustering results.", "anchors": ["pystruct/models/latent_graph_crf.py:LatentGraphCRF._set_size_joint_feature", "pystruct/models/latent_graph_crf.py:kmeans_init"]}
{"id": "C37", "title": "LatentGraphCRF loss augmentation adds the label loss", "statement": "In LatentGraphCRF.loss_augmented_inference, the augmented energy of every latent labelling h' is its energy plus the number of nodes where label_from_latent(h') differs from label_from_latent(h), which is loss(h, h').", "quantifier": "every graph, h, h', states per label", "why_tests_cant": "All h'.", "anchors": ["pystruct/models/latent_graph_crf.py:LatentGraphCRF.loss_augmented_inference", "pystruct/models/latent_graph_crf.py:LatentGraphCRF.loss"]}
{"id": "C38", "title": "Latent objective evaluates the loss of the right label", "statement": "SubgradientLatentSSVM.score and its objective call loss(y, h') with an observed label y where loss expects a latent state. For LatentGraphCRF this agrees with the label loss exactly when every label of y is mapped to itself by label_from_latent; in general a perfect prediction can be charged a loss (counter-example proved).", "quantifier": "every states-per-label layout, y, h'", "why_tests_cant": "Only visible for particular label layouts.", "anchors": ["pystruct/utils/inference.py:find_constraint_latent", "pystruct/learners/subgradient_latent_ssvm.py:SubgradientLatentSSVM"]}
{"id": "C39", "title": "LatentNodeCRF label extraction", "statement": "For latent-node models a completion returned by latent starts with the observed labels y for any inference result (LatentNodeCRF raises ValueError otherwise, EdgeFeatureLatentNodeCRF overwrites), and label_from_latent recovers y exactly when hidden nodes carry hidden states. With an exact solver and potentials too small to pay for a forbidden state the completion is a best one and its label is y; in general a hidden node can receive a label, so label_from_latent(latent(x, y, w)) differs from y. init_latent completes y for any clustering when there are hidden nodes (not when n_hidden is 0), and succeeds exactly when the last node of each instance is on an edge; it clusters the shares of labels among the visible neighbours.", "quantifier": "every y, clustering, inference result", "why_tests_cant": "Arbitrary solver output.", "anchors": ["pystruct/models/latent_node_crf.py:LatentNodeCRF", "pystruct/models/latent_node_crf.py:EdgeFeatureLatentNodeCRF"]}
{"id": "C40", "title": "Latent SSVM iterations do not increase the latent objective", "statement": "LatentSSVM.fit trains the base learner first on the initial completion and then, at most latent_iter times in all, on the completion found at the previous weights, stopping as soon as no latent output changes. If completion is exact and the base learner returns weights whose completed objective exceeds that of the weights it started from by at most eps, each iteration raises the latent structural SVM objective by at most eps (n of them by at most n eps); when the loop stops because nothing changed, the last completion is a best one at the last weights and completed and latent objectives agree there. NSlackSSVM and OneSlackSSVM with an exact QP meet the condition with an eps given by C, the tolerance and the QP's regularisation: the constraints re-derived for a new completion are valid for it, and so is the kept inference cache. FrankWolfeSSVM raises TypeError in the second iteration and StructuredPerceptron in the first.", "quantifier": "every data set, number of iterations, initial completion, base learner meeting the stated condition", "why_tests_cant": "All runs.", "anchors": ["pystruct/learners/latent_structured_svm.py:LatentSSVM.fit", "pystruct/learners/latent_structured_svm.py:LatentSSVM.predict", "pystruct/learners/latent_structured_svm.py:LatentSSVM.score"]}
{"id": "C41", "title": "LatentSSVM parameter properties", "statement": "Setting model, w, n_jobs or verbose on LatentSSVM and reading it back gives the value set and leaves the other attributes of the base learner unchanged. This is false for C: the setter leaves C as it was and overwrites base_ssvm.w with the number (proved for every value).", "quantifier": "every value", "why_tests_cant": "All values.", "anchors": ["pystruct/learners/latent_structured_svm.py:LatentSSVM.C", "pystruct/learners/latent_structured_svm.py:LatentSSVM.w"]}
{"id": "C42", "title": "Typed labels: flattening round trip and validation", "statement": "For TypedCRF models unflattenY(x, flattenY(lY)) == lY when sizes match, flattenY(unflattenY(x, y)) == y, flattened labels of different types never collide, and _check_size_xy accepts y exactly when it has one label per node and each label lies in its type's range; mismatched lengths raise ValueError. initialize on a list of samples performs no check at all under Python 3 because the map objects are never consumed (proved).", "quantifier": "every number of types, states per type, nodes per type, labels", "why_tests_cant": "All layouts.", "anchors": ["pystruct/models/typed_crf.py:TypedCRF.flattenY", "pystruct/models/typed_crf.py:TypedCRF.unflattenY", "pystruct/models/typed_crf.py:TypedCRF._check_size_xy", "pystruct/models/typed_crf.py:TypedCRF.initialize"]}
{"id": "C43", "title": "NodeTypeEdgeFeatureGraphCRF scores are linear in the joint feature", "statement": "dot(w, joint_feature(x, y)) equals the sum over types of node potentials plus the sum over type pairs of edge potentials used for inference, and the joint feature has length size_joint_feature.", "quantifier": "every number of types, states, features, edges per type pair, weights, valid labelling", "why_tests_cant": "Multi-level offset arithmetic over all type layouts.", "anchors": ["pystruct/models/node_type_edge_feature_graph_crf.py:NodeTypeEdgeFeatureGraphCRF.joint_feature", "pystruct/models/node_type_edge_feature_graph_crf.py:NodeTypeEdgeFeatureGraphCRF._get_pairwise_potentials"]}
{"id": "C44", "title": "NodeTypeEdgeFeatureGraphCRF loss augmentation adds the loss", "statement": "The multi-type loss augmentation adds class_weight[y_i] to every state of the node's own type other than y_i, so the augmented energy of y' is energy plus loss(y, y').", "quantifier": "every type layout, weights, y, y'", "why_tests_cant": "All layouts.", "anchors": ["pystruct/models/node_type_edge_feature_graph_crf.py:NodeTypeEdgeFeatureGraphCRF.loss_augment_unaries"]}
{"id": "C45", "title": "SaveLogger saves when and what it says, and what a crash can lose", "statement": "SaveLogger writes the learner exactly at iterations divisible by save_every and at 'final', stores a model without inference cache and leaves the learner's cache as it was, when pickling succeeds. If pickling raises, the in-memory cache is lost and the previously saved file has been truncated (proved); a file_name with %d makes the final save raise TypeError (proved).", "quantifier": "every iteration number, save_every, file name pattern, failure point", "why_tests_cant": "Crash points.", "anchors": ["pystruct/utils/logging.py:SaveLogger"]}
{"id": "C46", "title": "Exhaustive inference is exact", "statement": "exhaustive_inference and exhaustive_loss_augmented_inference return a labelling maximising the energy (resp. energy plus loss) among all labellings, the lexicographically first such one.", "quantifier": "every number of nodes and states, potentials", "why_tests_cant": "All sizes.", "anchors": ["pystruct/utils/inference.py:exhaustive_inference", "pystruct/utils/inference.py:exhaustive_loss_augmented_inference"]}
{"id": "C47", "title": "inference_dispatch selects and forwards correctly", "statement": "inference_dispatch selects the algorithm by the method name, lets options given in the (name, options) tuple be overridden as coded without mutating them, raises ValueError for unknown methods, and returns an energy alongside labels only for the methods that receive return_energy; for 'max-product', 'qpbo' and 'unary' a request return_energy=True is silently ignored (proved).", "quantifier": "every method, option dictionary and flags", "why_tests_cant": "All combinations.", "anchors": ["pystruct/inference/inference_methods.py:inference_dispatch"]}
{"id": "C48", "title": "AD3 multi-type decoding puts labels in the node's type range", "statement": "For multi-type graphs the labels returned by inference_ad3/inference_ad3plus lie in the range of states of the node's type and encode the per-node argmax of the solver's marginals; a relaxed result is returned exactly for fractional/unsolved status when relaxed is requested; an exception is raised only as specified by inference_exception.", "quantifier": "every type layout and solver answer/status", "why_tests_cant": "All solver answers.", "anchors": ["pystruct/inference/inference_methods.py:inference_ad3", "pystruct/inference/inference_methods.py:inference_ad3plus"]}
{"id": "C49", "title": "fit needs a violated constraint in its first round", "statement": "OneSlackSSVM.fit and NSlackSSVM.fit finish normally whenever at least one round solves a QP; when no constraint is ever added (max_iter=0, or the first round finds none, e.g. single-class data) they raise UnboundLocalError because the objective was never computed (proved).", "quantifier": "every oracle behaviour, iteration limit", "why_tests_cant": "Control flow over all histories.", "anchors": ["pystruct/learners/one_slack_ssvm.py:OneSlackSSVM.fit", "pystruct/learners/n_slack_ssvm.py:NSlackSSVM.fit"]}
{"id": "C50", "title": "Interrupting 1-slack training at a bad moment breaks warm start", "statement": "If OneSlackSSVM.fit is interrupted (KeyboardInterrupt) at any point outside two windows, a later fit(warm_start=True) starts with one dual history per constraint and ends normally (or finds no new constraint and raises UnboundLocalError). The windows are: from appending a new constraint until prune_constraints has added its history, i.e. the whole QP solve (one constraint too many), and between the two deletions of a pruned constraint (one too few). Inside them no warm start succeeds; it fails the assertion of prune_constraints. A learner interrupted in its very first iteration has no constraints_ (AttributeError).", "quantifier": "every interruption point and history", "why_tests_cant": "Crash points.", "anchors": ["pystruct/learners/one_slack_ssvm.py:OneSlackSSVM.fit"]}
{"id": "C51", "title": "predict is order preserving and independent of n_jobs", "statement": "BaseSSVM.predict returns for each sample, in order, the result of model.inference, for every n_jobs and for models with or without batch_inference; with a constraints list shorter than X the surplus samples are silently dropped (proved). With n_jobs=0 it raises ValueError, and for models whose inference has no keyword constraints a list of empty constraints raises TypeError for n_jobs=1 but not otherwise (proved).", "quantifier": "every list of samples, n_jobs, worker completion order", "why_tests_cant": "All schedules.", "anchors": ["pystruct/learners/ssvm.py:BaseSSVM.predict"]}
{"id": "C52", "title": "QPBO quantisation error is bounded", "statement": "inference_qpbo hands the solver potentials truncated to multiples of 1/1000; if the solver is exact on those, the energy of the returned labelling is within (number of nodes + number of edges)/500 of the optimum as long as the scaled potentials fit in int32; outside that range the result can be arbitrarily bad (proved).", "quantifier": "every graph and potentials", "why_tests_cant": "All magnitudes.", "anchors": ["pystruct/inference/inference_methods.py:inference_qpbo"]}
{"id": "C53", "title": "initialize infers the number of states from the labels seen", "statement": "CRF.initialize sets n_states to the number of distinct labels in Y; all labels are then valid states iff the labels are exactly 0..k-1; a gap in the labels is accepted by initialize although a label is out of range (proved); calling initialize again on the same data changes nothing but uniform_class_weight, which becomes False (harmless, proved) and calling it on other data succeeds only if the numbers of features and labels agree; a failed call may leave n_features set (proved).", "quantifier": "every data set", "why_tests_cant": "All label sets.", "anchors": ["pystruct/models/crf.py:CRF.initialize"]}
{"id": "C54", "title": "Configurations Frank-Wolfe training rejects", "statement": "FrankWolfeSSVM.fit raises IndexError with max_iter=0 (objective_curve_[-1]), UnboundLocalError with check_dual_every=0 in block-coordinate mode (dual_gap never assigned), ZeroDivisionError in batch mode with C=0; it never returns normally for a BinaryClf (batch_joint_feature takes no third argument: TypeError) nor for a MultiClassClf with rescale_C (batch_joint_feature called without Y_true).", "quantifier": "every training set, schedule, solver answers and previous weights", "why_tests_cant": "A test has to guess the combination; the claim that no input at all makes the fit succeed cannot be tested.", "anchors": ["pystruct/learners/frankwolfe_ssvm.py:FrankWolfeSSVM.fit", "pystruct/learners/frankwolfe_ssvm.py:FrankWolfeSSVM._calc_dual_gap", "pystruct/learners/frankwolfe_ssvm.py:FrankWolfeSSVM._frank_wolfe_bc", "pystruct/learners/frankwolfe_ssvm.py:FrankWolfeSSVM._frank_wolfe_batch"]}
{"id": "C55", "title": "Subgradient training: when it stops and what it rejects", "statement": "SubgradientSSVM never stops early in mini-batch mode (positive_slacks is -1 there) and in online mode stops early only after an epoch in which every visited sample had zero hinge loss at the weights in use; the weights then returned may again have positive hinge loss because the regularisation steps of that epoch are applied (proved). Online training from a fresh learner succeeds whenever C > 0 and decay_t0 > 0. n_jobs != 1 with batch_size raises ValueError, n_jobs=0 and batch_size=0 ZeroDivisionError, batch_size < -1 ValueError, decay_t0=0 with non-zero decay ZeroDivisionError, C=0 leaves non-finite weights, and mini-batch training never returns normally for a rescale_C model.", "quantifier": "every training set, schedule, parameter setting", "why_tests_cant": "Universally quantified over data and configurations.", "anchors": ["pystruct/learners/subgradient_ssvm.py:SubgradientSSVM.fit", "pystruct/learners/subgradient_ssvm.py:SubgradientSSVM._sequential_learning", "pystruct/learners/subgradient_ssvm.py:SubgradientSSVM._parallel_learning"]}
{"id": "C56", "title": "Latent subgradient steps follow a convex majorant of the latent objective", "statement": "For every weight vector the hinge loss of a sample completed with any consistent latent labelling bounds its latent hinge loss, with equality where the completion is best; each online step of SubgradientLatentSSVM goes against a subgradient of that majorant at the current weights and is exactly the step SubgradientSSVM would take on the completed sample. An epoch visits all samples in order; training stops early only after an epoch without positive slack; the curve ends with the objective of the returned weights; every n_jobs other than 1 and -1 raises AttributeError (self.j_jobs).", "quantifier": "every latent model, data set, weights, parameter setting", "why_tests_cant": "A statement about the shape of the objective at all weights and about all executions.", "anchors": ["pystruct/learners/subgradient_latent_ssvm.py:SubgradientLatentSSVM.fit", "pystruct/learners/subgradient_latent_ssvm.py:SubgradientLatentSSVM._objective", "pystruct/utils/inference.py:find_constraint_latent"]}
{"id": "C57", "title": "Latent-node models: linear scores, losses and loss augmentation", "statement": "For LatentNodeCRF and EdgeFeatureLatentNodeCRF, with or without features for hidden nodes, the product of the weights with joint_feature(x, h) is the score of h for every labelling h and the expected score for relaxed marginals (for declared (anti)symmetric edge features with the corresponding part of the weights, hence with the weights themselves when they respect the declaration); the potentials agree with it except for the forbidden entries, which get -100*max_entry; loss, continuous_loss and max_loss are class-weighted Hamming losses of the visible labels; loss-augmented unaries add exactly that loss. With an exact solver and small potentials inference, loss-augmented inference and completion are optimal over two-level labellings. No edge features or no edges raise.", "quantifier": "every model size, graph, weights, labelling or relaxed marginals", "why_tests_cant": "Linear identities over all weights and optimality over exponentially many labellings.", "anchors": ["pystruct/models/latent_node_crf.py:LatentNodeCRF.joint_feature", "pystruct/models/latent_node_crf.py:EdgeFeatureLatentNodeCRF.joint_feature", "pystruct/models/latent_node_crf.py:LatentNodeCRF.loss_augmented_inference"]}
{"id": "C58", "title": "Multi-type inference is as exact as the AD3 library", "statement": "For NodeTypeEdgeFeatureGraphCRF, when the AD3 library answers the typed problems exactly, inference returns a labelling that respects the types and maximises the score, loss-augmented inference one that maximises score plus class-weighted Hamming loss, for both methods ad3 and ad3+, with or without relaxed; so the learner theorems apply to this model. setInferenceException has no effect: a fractional solution is rounded silently (proved). Constraints reach the library only with ad3+; with ad3 they raise TypeError. Without the library inference raises ImportError.", "quantifier": "every type layout, instance, weights, labelling, library", "why_tests_cant": "Optimality over exponentially many labellings and over all libraries.", "anchors": ["pystruct/models/typed_crf.py:TypedCRF.setInferenceException", "pystruct/models/node_type_edge_feature_graph_crf.py:NodeTypeEdgeFeatureGraphCRF", "pystruct/inference/inference_methods.py:inference_ad3plus"]}
{"id": "C59", "title": "The training-loss curve records every show_loss_every-th iteration", "statement": "_compute_training_loss appends 1 - score to loss_curve_ exactly at the iterations divisible by show_loss_every, in order, and never when it is 0; the curve is not reset by a new fit, so a refitted learner's curve begins with the values of the previous fit (proved).", "quantifier": "every model, data set, sequence of weights, show_loss_every, worker completion order", "why_tests_cant": "Quantified over all training runs and schedules.", "anchors": ["pystruct/learners/ssvm.py:BaseSSVM._compute_training_loss", "pystruct/learners/ssvm.py:BaseSSVM.score"]}
{"id": "C60", "title": "LP relaxation is exact on graphs without cycles", "statement": "On a graph without cycles the points of the linear program built by lp_general_graph are exactly the mixtures of labellings, so the energy reported by inference_lp is minus the score of the best labelling; every label returned by inference_lp or inference_ad3 (non-relaxed) is the label of some best labelling at that node, and if the best labelling is unique it is the one returned and the relaxed marginals are its indicators. On a cycle the reported value can exceed every labelling's score, and with ties the returned labels need not form a best labelling (both proved).", "quantifier": "every forest, number of states, potentials, optimum returned by the solver", "why_tests_cant": "A statement about all points of a polytope and all optima a solver might return.", "anchors": ["pystruct/inference/linear_programming.py:lp_general_graph", "pystruct/inference/inference_methods.py:inference_lp", "pystruct/inference/inference_methods.py:inference_ad3"]}
{"id": "C61", "title": "Binary SVM: dual program, optimal weights, intercept", "statement": "SVM.fit hands the solver exactly the dual of the soft-margin problem; if the solver's multipliers are optimal, each 0 or above the 1e-5 threshold, and some support vector lies on the margin, the weights are optimal, and the stored intercept equals the optimal one plus the mean of label times slack over the support vectors: so (w, b) minimises the soft-margin objective when no multiplier reaches C, and need not otherwise (proved by an example with a wrong prediction). Data of a single class always raise ZeroDivisionError; predictions are signs, with 0 on the hyperplane.", "quantifier": "every data set with labels +-1, every C, every optimum the solver may return", "why_tests_cant": "Optimality over all weights and intercepts; all dual optima.", "anchors": ["pystruct/learners/svm.py:SVM.fit", "pystruct/learners/svm.py:SVM.predict"]}
{"id": "C62", "title": "The downhill-simplex learner minimises the rescaled structural SVM objective and keeps the better of its two runs", "statement": "PrimalDSStructuredSVM.fit hands scipy's fmin the function w -> mean over the samples of the slack of find_constraint + |w|^2/(2C). With exact loss-augmented inference this is the mean structured hinge loss plus |w|^2/(2C); whatever the inference, it is objective_primal (the objective of all other learners) with C/n in place of C, divided by C, and it fails exactly where that one fails. fit keeps the run with the smaller reported value (the run from 1e-5 on a tie); if fmin never ends above its start the result is no worse than both starts; if one run finds a minimum the result minimises objective_primal with C/n. It is not, as the docstring has it, a sanity check of the other implementations with the same C: on two samples its exact optimum is not theirs. An empty training set raises ZeroDivisionError.", "quantifier": "all model objects, training sets, C, weights, and all minimisers fmin (with the stated assumption where needed)", "why_tests_cant": "The only test uses one training set and compares predictions; it cannot relate two objectives at all weights, nor notice that the optimum is for another C.", "anchors": ["pystruct/learners/downhill_simplex_ssvm.py:15-29", "pystruct/utils/inference.py:54-83", "pystruct/utils/inference.py:115-127"]}
{"id": "C63", "title": "Latent grid models", "statement": "LatentGridCRF and LatentDirectionalGridCRF: the joint feature scores a hidden labelling as unary terms of the pixels plus pairwise terms of the grid edges (a full matrix per direction for the directional model), inference and loss-augmented inference are exact when the solver is, the completion of y explains y and is the best such completion or the declared fallback, and init_latent returns completions that explain Y, which it does exactly when every occurring label has states and occurs at least as often as it has states. LatentDirectionalGridCRF with neighborhood other than 4 is accepted but no inference works, and init_latent of either model rejects lists.", "quantifier": "all grid sizes, all numbers of labels, features and states per label, all weights and samples, all solvers and clusterers with the stated contract", "why_tests_cant": "The tests use one toy grid data set with 4-neighbourhood and numpy arrays, and never build LatentDirectionalGridCRF with neighborhood=8.", "anchors": ["pystruct/models/latent_grid_crf.py"]}
{"id": "C64", "title": "The cutting-plane learners terminate near the optimum", "statement": "OneSlackSSVM without pruning and with an exact QP solver: the number of recorded rounds times the guaranteed dual gain is at most C n times the largest loss, so with max_iter above that bound training stops because no violated constraint is left and, with exact inference, ends within C n tol of the optimum. NSlackSSVM without pruning: no constraint is added twice, so the number of rounds is at most the number of allowed outputs; with an exact solver the objective curve never decreases, a tolerance of zero never stops training, and training ends near the optimum; with a positive tolerance and any pruning max_iter can only be used up if it is at most two plus the objective at zero weights over tol (about twice that with switch_to).", "quantifier": "all tasks with bounded features and losses, all samples, all parameters, all batch sizes, caches and switch_to, all exact QP solvers (every solver for the finite bound)", "why_tests_cant": "Tests train on a few small data sets and look at the final score; that no data set makes the loop run longer is a statement about all of them.", "anchors": ["pystruct/learners/one_slack_ssvm.py:OneSlackSSVM.fit", "pystruct/learners/n_slack_ssvm.py:NSlackSSVM.fit", "pystruct/learners/n_slack_ssvm.py:NSlackSSVM._check_bad_constraint"]}
{"id": "C65", "title": "Grid, edge-feature and multi-label models in the learners; whole training runs", "statement": "GridCRF, DirectionalGridCRF with four neighbours, EdgeFeatureGraphCRF and MultiLabelClf, seen as the learners see them (joint_feature, loss, loss_augmented_inference, inference), compute their tasks: features whose product with the weights is the score of the labelling, the weighted Hamming loss, and loss-augmented labellings that maximise score plus loss when the solver is exact (for EdgeFeatureGraphCRF at weights that respect the declared symmetries). Consequently NSlackSSVM trained on ChainCRF (with its own max-product inference), on the grid models or on MultiLabelClf, without pruning and with an exact QP solver that always answers and more iterations than there are labellings, can only end because no violated constraint is left, and its weights are within C n small plus the solver's regularisation of the optimum of the regularised hinge loss over all weights. OneSlackSSVM on ChainCRF with max_iter above the explicit bound ends likewise within C n tol.", "quantifier": "all weights, all samples of valid shape, all sizes and label counts, all parameters in the stated range, all exact solvers", "why_tests_cant": "The optimum over all weights and the exact maximum over exponentially many labellings cannot be enumerated by a test; the test-suite compares final accuracies on toy data.", "anchors": ["pystruct/models/grid_crf.py", "pystruct/models/edge_feature_graph_crf.py", "pystruct/models/multilabel_svm.py", "pystruct/models/chain_crf.py", "pystruct/learners/n_slack_ssvm.py:NSlackSSVM.fit", "pystruct/learners/one_slack_ssvm.py:OneSlackSSVM.fit"]}
{"id": "C66", "title": "Learners on models that are right on a subspace only; EdgeFeatureGraphCRF training", "statement": "The weights NSlackSSVM and OneSlackSSVM return from a cold start lie in every subspace that contains the joint features of the samples, whatever the QP solver answers and whatever the parameters are; so inference needs to be right only on that subspace. With inference that is exact on it, training ends near the optimum over all weights, as in C64 and C65. The weights that respect the declared symmetric and antisymmetric edge features form such a subspace for EdgeFeatureGraphCRF, so NSlackSSVM and OneSlackSSVM on it return weights that respect the declarations and are near-optimal, although its loss-augmented inference is inconsistent at other weights.", "quantifier": "all tasks, subspaces with a projection, samples, QP solvers and parameters (exact solver and enough iterations for the optimality part); all EdgeFeatureGraphCRF sizes and declarations accepted by the constructor", "why_tests_cant": "That no intermediate weight vector of any training run leaves the subspace cannot be sampled; the tests with symmetric edge features look at final weights of one data set.", "anchors": ["pystruct/models/edge_feature_graph_crf.py", "pystruct/learners/n_slack_ssvm.py:NSlackSSVM.fit", "pystruct/learners/one_slack_ssvm.py:OneSlackSSVM.fit"]}
{"id": "C67", "title": "Synthetic grid data sets", "statement": "Every generator of datasets/synthetic_grids.py returns n_samples pairs of the stated shapes, with the labels of the named figure (blocks, checkers, boxes, bars, crosses, squares with a hole, nested boxes, x) placed inside the image and consecutive figures apart, and inputs that agree with the labels except at the flipped pixels (integer noise) or up to the added normal noise, so that with small noise the label is the strictly largest channel (resp. a function of the inputs). Expected but false: that the generators always end (generate_crosses with total_size 5 to 7 and two crosses never does, for 8 and 9 it may not, generate_crosses_explicit likewise), that generate_bars with default parameters always succeeds (IndexError when only vertical bars were drawn), and that generate_crosses_latent yields four labels (it yields 0, 2, 3, so a model that infers its sizes takes 3 states and its loss raises IndexError).", "quantifier": "all sizes, numbers of samples, noise values, normal variates and streams of random integers; termination for all streams that do not avoid a position for ever", "why_tests_cant": "The tests call a few generators with default sizes and seeds and check shapes only; non-termination and rare draws cannot be observed by running them.", "anchors": ["pystruct/datasets/synthetic_grids.py"]}
{"id": "C68", "title": "Frank-Wolfe training converges", "statement": "With exact loss-augmented inference, joint features within R of the true one and losses in [0, L]: in batch mode (either step rule) the dual objective after j steps is within 2 K C n / (j + 2) of every lower bound of the objective, K = 4 C n R^2 + eps, and with line search and enough iterations training stops by itself near the optimum. In block-coordinate mode with line search, every pass visiting every sample once and check_dual_every > 0, with or without averaging, an explicit number of passes suffices for the duality gap of the returned weights to fall below tol; so for every tol > 0 there is a max_iter that is enough for every order of the samples, and the returned weights are within tol of the optimum. Expected but false: that the gap which ended batch training bounds the suboptimality of the returned weights (they have moved one step further).", "quantifier": "all tasks, models, samples, C, tolerances, check intervals and sample orders meeting the bounds", "why_tests_cant": "Convergence is a statement about all sample orders and all numbers of iterations; the tests fit a few small data sets and check accuracy.", "anchors": ["pystruct/learners/frankwolfe_ssvm.py"]}
{"id": "C69", "title": "Training curves and their plot", "statement": "A fit that is not interrupted records, besides the start, one time stamp per entry of objective_curve_ and as many entries in primal_objective_curve_ and cached_constraint_; the stamps are consecutive readings of the clock relative to the start and never decrease, also over warm starts of the cutting-plane learners; the logger is called with increasing iteration numbers and finally with 'final' when everything is recorded, and sees agreeing curves each time; in a first fit there is a training loss for every show_loss_every-th iteration. plot_learning succeeds on such curves and draws entry i at stamp i+2 (the last entry at the last stamp), the points with inference and the gap at the last of them. Also after KeyboardInterrupt anywhere in the subgradient learners, and while looking for constraints in the others. Expected but false: that it survives an interrupt during the training loss (n-slack) or the QP (one-slack); that it works if training stops in the first epoch, or with all learners; that training losses are drawn over the axis named below them (never if show_loss_every = 1); that a warm start of SubgradientSSVM keeps the stamps; that a second fit starts a new loss_curve_; that Frank-Wolfe honours show_loss_every.", "quantifier": "all recorded numbers, clocks, stopping decisions, warm starts, logger settings and positions of an interrupt", "why_tests_cant": "Nothing tests plot_learning, and no test interrupts a fit or looks at timestamps_.", "anchors": ["pystruct/plot_learning.py", "pystruct/learners/n_slack_ssvm.py", "pystruct/learners/one_slack_ssvm.py", "pystruct/learners/frankwolfe_ssvm.py", "pystruct/learners/subgradient_ssvm.py", "pystruct/learners/subgradient_latent_ssvm.py", "pystruct/learners/ssvm.py"]}
{"id": "C70", "title": "Subgradient training converges", "statement": "With the default schedule of SubgradientSSVM (learning rate C*n/(t+t0), t0 >= 1, no momentum, no averaging), one job and online learning, mini-batches of equal size or the full batch, the objective of the weights returned by fit comes within any eps > 0 of the minimum once max_iter is large enough, with an explicit bound after E epochs; the number of epochs needed does not depend on the shuffling nor on how inference breaks ties, and training may start from any weights (warm or cold). Nearly minimal weights are close to each other, so the weights converge as well. With n_jobs != 1 fit converges to the minimiser for C*n/n_batches; with mini-batches of unequal size and no shuffling to the minimiser of an objective that weights samples by the size of their batch. Expected but false: that the defaults converge (break_on_no_constraints=True stops in the second epoch, any max_iter); that n_jobs or batch_size leave the minimiser alone.", "quantifier": "all tasks and models with exact loss-augmented inference, training sets, C > 0, t0 >= 1, shufflings, starting learners, numbers of epochs", "why_tests_cant": "Tests run a fixed small number of epochs on one data set and compare training accuracy; a limit is about all max_iter.", "anchors": ["pystruct/learners/subgradient_ssvm.py:129-152", "pystruct/learners/subgradient_ssvm.py:154-243", "pystruct/learners/subgradient_ssvm.py:245-278", "pystruct/learners/subgradient_ssvm.py:280-312"]}
{"id": "C71", "title": "The learners agree", "statement": "SubgradientSSVM (default schedule), FrankWolfeSSVM (block-coordinate, line search), OneSlackSSVM and NSlackSSVM, trained on the same data with the same C and exact inference, minimise the same objective: the weights each returns are within an explicit gap of its minimum (eps, tol, C*n*tol + 1e-8*(C*n)^2 and C*n*1e-5 + 1e-8*n*C^2), and the squared distance of the weights of any two of them is at most four times the sum of the two gaps. An output whose lead at nearly minimal weights exceeds the square root of that distance times the distance of the joint features is predicted by every one of them; after some number of epochs or iterations the prediction of the subgradient and Frank-Wolfe learners no longer changes, whatever the order of the samples.", "quantifier": "all tasks and models with exact loss-augmented inference, training sets, C > 0, exact QP solvers, shufflings and sample orders, tolerances, warm starts of the subgradient learner, inputs to predict on", "why_tests_cant": "Tests compare accuracies or objectives of two learners on one data set; agreement within a bound holds for all data sets and all sufficiently long runs.", "anchors": ["pystruct/learners/subgradient_ssvm.py:154-243", "pystruct/learners/frankwolfe_ssvm.py:197-309", "pystruct/learners/one_slack_ssvm.py:398-552", "pystruct/learners/n_slack_ssvm.py:240-430", "pystruct/learners/ssvm.py:21-45"]}
{"id": "C72", "title": "Averaged subgradient weights converge", "statement": "SubgradientSSVM with averaging='linear', averaging='squared' or none (default learning rate schedule, t0 >= 1, no momentum): for every eps > 0 there is a number of epochs after which the weights fit leaves in self.w have an objective within eps of the minimum, for every shuffling, every start (also after earlier fits, whose step counter and weights stay in the average) and every choice between equally bad outputs; online, with equal batches, with the full batch. Runs with different averaging, batches or shuffling get arbitrarily close in their weights. With n_jobs != 1 the limit is the minimiser for C*n/n_batches; with unequal batches that of a reweighted objective.", "quantifier": "all tasks and models with exact loss-augmented inference and bounded joint features, non-empty training sets, C > 0, t0 >= 1, averaging settings, shufflings, starting learners, warm starts, eps > 0", "why_tests_cant": "Tests check the accuracy of an averaged run on one data set. Convergence is a statement about all sufficiently long runs.", "anchors": ["pystruct/learners/subgradient_ssvm.py:129-152", "pystruct/learners/subgradient_ssvm.py:154-243", "pystruct/learners/subgradient_ssvm.py:245-312"]}
{"id": "C73", "title": "One node type is the plain edge-feature model", "statement": "NodeTypeEdgeFeatureGraphCRF with a single node type, on inputs converted as in examples/plot_snakes_typed.py, agrees with EdgeFeatureGraphCRF without (anti)symmetric features: same number of weights, same joint features of integer and relaxed labellings, same potentials, same loss augmentation, same inference and loss-augmented inference with 'ad3' and 'ad3+', errors included. The exceptions: the typed class refuses edges to missing nodes, raises InconsistentLabel instead of IndexError for too large labels, accepts zero edge features (the other cannot do inference then), and with inference_exception=True raises where the other silently rounds.", "quantifier": "all sizes, class weights, instances, labellings, weights, keyword arguments and AD3 libraries that treat a one-element list like its element", "why_tests_cant": "The example prints both accuracies on one data set; tests compare a few arrays.", "anchors": ["pystruct/models/node_type_edge_feature_graph_crf.py:101-162", "pystruct/models/node_type_edge_feature_graph_crf.py:251-440", "pystruct/models/typed_crf.py:188-319", "pystruct/models/edge_feature_graph_crf.py:74-206", "pystruct/inference/inference_methods.py:338-538", "examples/plot_snakes_typed.py:15-48"]}
{"id": "C74", "title": "Learners see a model only through its methods", "statement": "If two models, possibly over different input formats, agree on every training sample (joint feature, inference, loss-augmented inference, loss; on a set of labels containing the true label and everything inference returns), then StructuredPerceptron, SubgradientSSVM, FrankWolfeSSVM, NSlackSSVM and OneSlackSSVM return the same result for both: weights, curves, working sets, caches, stopping reason and exceptions, for all parameters, warm starts and switch_to. In particular OneSlackSSVM on single-type NodeTypeEdgeFeatureGraphCRF equals OneSlackSSVM on EdgeFeatureGraphCRF.", "quantifier": "all pairs of models and training sets that agree sample by sample, all learner parameters, QP solvers, schedules, shufflings, earlier fits", "why_tests_cant": "A test can compare two trained models on one data set only.", "anchors": ["pystruct/learners/structured_perceptron.py:73-199", "pystruct/learners/subgradient_ssvm.py:154-312", "pystruct/learners/frankwolfe_ssvm.py:129-307", "pystruct/learners/n_slack_ssvm.py:240-400", "pystruct/learners/one_slack_ssvm.py:309-552", "pystruct/utils/inference.py:54-127"]}
{"id": "C75", "title": "The graph models are one model", "statement": "EdgeFeatureGraphCRF with one constant edge feature is the directed GraphCRF: same number of weights, unary potentials, joint features (integer and relaxed), the pairwise table repeated per edge, the same predictions and loss-augmented predictions with every dispatched method except ad3+, exceptions included, so every learner returns the same fit. The undirected GraphCRF has the potentials, predictions and scores of the directed one with the triangle of pairwise weights written out symmetrically. GridCRF is GraphCRF, DirectionalGridCRF (4-neighbourhood) is EdgeFeatureGraphCRF and ChainCRF is GraphCRF on the graph of the picture or chain, for predictions and training.", "quantifier": "all sizes, instances, labellings, weights, class weights, backends and dispatched methods; for pictures all solvers that label every node once", "why_tests_cant": "Tests compare the classes on single arrays; the equality of complete training runs and of raised exceptions is not testable.", "anchors": ["pystruct/models/graph_crf.py:95-212", "pystruct/models/edge_feature_graph_crf.py:74-206", "pystruct/models/grid_crf.py:38-172", "pystruct/models/chain_crf.py:10-60", "pystruct/inference/common.py:4-17", "pystruct/inference/inference_methods.py:38-122"]}
{"id": "C76", "title": "The features of the snake examples", "statement": "one_hot_colors maps red, green, yellow, blue and cyan pixels of a picture of pure colours to the five unit rows and black, magenta and white ones to zero rows; it raises ValueError on empty pictures, pictures without three colour values and non-integer codes. neighborhood_feature puts at column 9c+s of pixel (i,j) channel c of the neighbour at offset s (background beyond the border), and the nine positions are the nine offsets of the 3x3 neighbourhood. prepare_data gives, picture by picture, instances that fit EdgeFeatureGraphCRF with 45 features and 2 or 180 edge features, on the 4-neighbourhood, with the directions or the patches of both ends in columns that depend on the direction, so that the score of an edge is linear in both patches with separate weights for horizontal and vertical edges; pictures without edges raise ValueError.", "quantifier": "all pictures (any height, width, channel values), data sets, weights and states", "why_tests_cant": "The example scripts have no tests, and a wrong slice at one border pixel only shows as a slightly worse accuracy.", "anchors": ["examples/plot_snakes.py:47-99", "pystruct/utils/graph.py:4-27"]}
{"id": "C77", "title": "Looking for, distorting and shortening hidden snakes", "statement": "On one-hot pictures with a background border isSnakePresent never raises and is true exactly if there is a chain of nCell distinct cells pointing at each other or a closed loop of nCell-1 cells; loops are even, so it is exact for even nCell (the default 10) and wrong on some picture for every odd nCell from 3 on; without the border it wraps around or raises. changeOneSnakeCell copies the colour of the first of ten drawn cells that differs onto the drawn cell, keeps the set of coloured cells, the one-hot property and the border, and leaves the picture unchanged if there is none; the wrong number of cells raises AssertionError. augmentWithNoSnakeImages appends distorted copies without a snake of ten cells, labelled zero; with shorter snakes nothing is discarded although snakes may be left. shorten_snakes keeps the cells labelled 1..N with a one-pixel margin when the snake does not touch the border; a snake in the first row is lost.", "quantifier": "all pictures, label arrays, cell numbers, multiplicities and random draws", "why_tests_cant": "The scripts have no tests; loops, wrap-around and border cases need particular pictures that the data set does not contain.", "anchors": ["examples/plot_hidden_snakes.py:62-126", "examples/plot_hidden_snakes.py:128-220"]}
{"id": "C78", "title": "Renumbering node types (swap_node_types)", "statement": "For every permutation of the types that is its own inverse, swap_node_types turns an instance and a labelling that the model accepts into the same instance and labelling for the model with renumbered types: nodes, edges, features and states are kept, scores agree for the renumbered weights, the best labellings correspond, class weighted losses are equal, and swapping twice gives everything back. For other permutations the labels of type i end up at the nodes of type p(p(i)): they can be invalid there, and if the numbers of nodes differ there is a ValueError (a single label is broadcast). A node array None raises AttributeError, a permutation entry out of range IndexError. With any non-empty list of constraints the function does not terminate, because it appends to the list it iterates over.", "quantifier": "all models, permutations, instances, labellings and weights; any number of iterations", "why_tests_cant": "The script only swaps two types, and only in a debugging mode that is off; nothing tests it.", "anchors": ["examples/plot_hidden_short_snakes_typed.py:219-273"]}
{"id": "C79", "title": "Snake instances with pixel and picture nodes, and the constraints of the snake examples", "statement": "convertToTwoType turns a prepared picture, its labels, the picture features and the picture label into an instance of the two-type model of the example: pixels with their 4-neighbourhood edges, one picture node, an edge from every pixel to it; the labels are accepted exactly if all pixel labels are at most nCell and the picture label is 0 or 1. Its score is that of an EdgeFeatureGraphCRF on the pixels plus a picture score plus one score per pixel and picture label, and the exchange of the types gives an instance of the other model with the same scores. prepare_picture_data yields the colour counts, height and width, of which distorting a snake keeps background count, height and width. makeItEasy overwrites all seven features by the label, not one. The constraints of listConstraints allow exactly: no snake and only background, or a snake with every cell number once; the ATMOSTONE variant and buildConstraints are characterised likewise, and the latter leaves the tenth cell unconstrained.", "quantifier": "all pictures, labels, features, weights, numbers of cells, states of the nodes", "why_tests_cant": "The example trains for hours on one data set; whether its instances and constraints mean what they should is never checked by a test.", "anchors": ["examples/plot_hidden_short_snakes_typed.py:120-217", "examples/plot_hidden_short_snakes_typed.py:275-325", "examples/plot_snakes_constraints.py:113-131", "examples/plot_hidden_snakes.py:293-311"]}
{"id": "C80", "title": "Snakes generated at random and the grids that show them", "statement": "Whatever the shuffles of the directions are, a run of genSnakes that ends raises nothing (no index leaves the board) and returns N pictures; each shows exactly one snake of n distinct cells, every cell pointing at the next one and the last one at background, framed by a background border of one pixel, cropped tightly, with the cells labelled 1..n; isSnakePresent finds it. A picture determines its snake, and no two pictures of a run, or of successive runs with the same dictionary, agree. The loop does not end when more than 4^(n-1) snakes are requested; labels wrap from 256 cells on. plot_many_snakes shows every picture in a square of its own if the pictures have at most ncell+1 rows and columns; but generated pictures have up to ncell+2, and such a picture in the last row or column raises ValueError. plot_mistakes selects exactly the wrongly predicted pictures.", "quantifier": "all sequences of shuffles, numbers of snakes and cells, dictionaries, lists of pictures, grid sizes", "why_tests_cant": "The generator is random and the example is never run by the tests; uniqueness, self-avoidance and index bounds concern all random choices.", "anchors": ["examples/plot_hidden_short_snakes_typed_gen.py:105-163", "examples/plot_hidden_short_snakes_typed_gen.py:165-203"]}
{"id": "C81", "title": "Models that differ only in how they write weights and inputs are trained alike", "statement": "Suppose two models have weights related by a linear isometry and answer corresponding samples with corresponding joint features, losses and loss-augmented predictions. Then StructuredPerceptron, SubgradientSSVM, FrankWolfeSSVM, NSlackSSVM and OneSlackSSVM (with the same QP solver) run in lockstep: corresponding weights, working sets and caches, the same curves, the same reason to stop, the same exceptions. In particular (examples/svm_as_crf.py) GraphCRF on graphs with one node and an inference that takes the first best label (unary, max-product) is MultiClassClf: same class predicted, same training, weights padded by zeros for the pairwise weights. And exchanging the order of the node features exchanges the weights and changes nothing else. The first statement needs inputs of the right size: MultiClassClf broadcasts an input with one number, GraphCRF raises ValueError.", "quantifier": "all models, samples, class weights, learner parameters, QP solvers, shuffles, warm starts, feature permutations", "why_tests_cant": "svm_as_crf.py compares two accuracies on one data set; the equality of all iterates for all five learners is a relation between two executions.", "anchors": ["examples/svm_as_crf.py:1-41", "pystruct/models/unstructured_svm.py", "pystruct/models/graph_crf.py", "pystruct/learners/structured_perceptron.py", "pystruct/learners/subgradient_ssvm.py", "pystruct/learners/frankwolfe_ssvm.py", "pystruct/learners/n_slack_ssvm.py", "pystruct/learners/one_slack_ssvm.py"]}
{"id": "C82", "title": "Label trees, full label graphs and random trees", "statement": "chow_liu_tree returns pairs i < j of labels without cycles, connects labels that share mutual information and no others, and (for symmetric, non-negative information) no acyclic set of pairs carries more information. It is a tree if any two labels share information; otherwise it is a forest, and empty for independent labels. MultiLabelClf with max-product inference on it returns labels each of which occurs in some best labelling (the best labelling if it is unique), and raises an exception if the forest is empty. full lists every pair once (ValueError for one label) and has cycles from three labels on. make_random_trees returns spanning trees of least total distance with n-1 edges if no distance is zero.", "quantifier": "all label tables, information measures, spanning tree algorithms meeting scipy's specification, weights and inputs", "why_tests_cant": "The scripts run on one downloaded data set; independent labels, ties and all label tables are out of reach.", "anchors": ["examples/multi_label.py:35-67", "benchmarks/multi_label_tree.py:35-67", "benchmarks/random_tree_crf.py:15-29"]}
{"id": "C83", "title": "Binary, two-class and multi-label classifiers solve the same problem", "statement": "The structured hinge loss of BinaryClf is max(0, 1 - y w.x); that of a two-class MultiClassClf is the same with the difference of the class weights, that of a MultiLabelClf without edges is the sum over the labels with twice each label's weights. Hence weights within e of the minimum for MultiClassClf with C give weights within 2e for BinaryClf with 2C and conversely, the class weights are opposite up to 4e (squared), and weights learned with the two models are close; a MultiLabelClf without edges trained with C is one BinaryClf with 4C per label, both ways, in particular after n-slack training. Predictions agree off the decision boundary; on it the two-class model answers class 0 and the binary model +1. Without edges labels are decided one by one.", "quantifier": "all samples, weights, numbers of features and labels, C, tolerances, exact solvers", "why_tests_cant": "Test suites compare accuracies of the classifiers on one data set; equality of the optimisation problems is a statement about all weights and samples.", "anchors": ["pystruct/models/unstructured_svm.py:44-130", "pystruct/models/unstructured_svm.py:201-335", "pystruct/models/multilabel_svm.py:43-107", "examples/plot_binary_svm.py:40-80", "examples/multi_label.py:70-85"]}
{"id": "C84", "title": "What an interrupted fit leaves behind", "statement": "KeyboardInterrupt may arrive between any two statements of the training loops. NSlackSSVM: at every such moment of a batch the weights have their length and the constraints are true ones; calling fit again with the constraints left behind runs to its end, and is as good as an uninterrupted fit, provided there is a constraint and at most one deletion was pending; with two or more pending deletions in a sample it fails with IndexError, because pruning drops the counters before the constraints, and without any constraint with ValueError. FrankWolfeSSVM (block-coordinate): the weights always belong to a point of the dual problem and self.l to the same point before and after an update; without averaging self.w is the working array, so in the middle of an update the block of the sample is missing, the pair (w, l) can exceed the optimum and all weights can be zero; with averaging weights only change by assignment. FrankWolfeSSVM (batch): the weights are those of a fit with fewer iterations and every recorded dual value is a lower bound; the primal curve can be one entry longer; before the first dual value is recorded fit ends with IndexError. SubgradientSSVM: the weights are those before or after the step, self.t may be one behind.", "quantifier": "all models with correct oracles, solvers, parameters, data sets, batches, reachable states and moments of interruption", "why_tests_cant": "Interruptions are not simulated by the test suite; the moment of the interrupt is chosen by the user.", "anchors": ["pystruct/learners/n_slack_ssvm.py:268-382", "pystruct/learners/n_slack_ssvm.py:402-430", "pystruct/learners/frankwolfe_ssvm.py:221-259", "pystruct/learners/frankwolfe_ssvm.py:146-195", "pystruct/learners/frankwolfe_ssvm.py:290-309", "pystruct/learners/subgradient_ssvm.py:129-152", "pystruct/learners/subgradient_ssvm.py:192-229"]}
{"id": "C85", "title": "What a converged loopy max-product run guarantees", "statement": "After any run of iterative_max_product with at least one iteration and 0 <= damping < 1, all messages satisfy the max-product equations up to d = (total change in the last sweep) / (1 - damping). If every node prefers its label by more than 2 d, no labelling that differs from the answer only in a region with at most one cycle per component scores more than 2 d per touching edge better, and changes in acyclic regions (in particular single nodes) are strictly worse; so on graphs with one cycle the answer is optimal up to the tolerance. With more cycles this fails: on the complete graph with four nodes a converged run with clear decisions is wrong. Because the backward message is normalised with the maximum of the old message (line 156), messages grow without bound when every node has two outgoing edges, and flip forever at leaves without damping.", "quantifier": "all graphs, scores, numbers of labels, iterations, damping factors and labellings", "why_tests_cant": "Tests only use chains and trees with max-product; the region argument quantifies over all labellings and all graphs.", "anchors": ["pystruct/inference/maxprod.py:128-164", "pystruct/inference/maxprod.py:22-62"]}
{"id": "C86", "title": "Two labels: the LP relaxation is exact when edges reward agreement, and persistent always", "statement": "With two labels and edge tables with P(0,1)+P(1,0) <= P(0,0)+P(1,1), on every graph, no point of the linear programming relaxation scores above the best labelling; inference_lp returns a best labelling and its energy for whatever optimum the solver returns (ties and cycles included), every threshold of the relaxed marginals is a best labelling, and inference_ad3 is exact when the library's marginals are an optimum. For GraphCRF with two states this makes inference and loss-augmented inference with 'lp' maximise dot(w, joint_feature) (+ loss). Without the condition on the edges, labels at which the optimum is 0 or 1 can be kept: some best labelling has all of them. With three labels the relaxation is not exact.", "quantifier": "all graphs, scores, optima of the relaxation, thresholds in [0,1), labellings, class weights", "why_tests_cant": "Tests compare LP and other solvers on a few random grids; they cannot cover every optimum of a degenerate program nor every graph.", "anchors": ["pystruct/inference/inference_methods.py:284-335", "pystruct/inference/linear_programming.py:6-110", "pystruct/inference/inference_methods.py:338-427", "pystruct/models/crf.py:62-183"]}
{"id": "C87", "title": "Training with relaxed inference minimises an upper bound, and rounding at most doubles it", "statement": "The learners call loss-augmented inference with relaxed=True, so with 'lp' or 'ad3' answers may be tuples of marginals. GraphCRF computes joint features and losses of such tuples as the expected score and the mass taken from the true labels; when the method solves the relaxation, loss-augmented inference is exact for the task whose outputs are the points of the local polytope. 'lp' solves it when its backend finds optima of linear programs (every relaxation has one, and such a backend exists), 'ad3' when the library does, max-product on chains. The relaxed hinge loss is at least the hinge loss over labellings, equal on forests and for two attractive states, larger on a frustrated triangle. The loss of the rounded prediction is at most twice the relaxed hinge loss. OneSlackSSVM with 'lp' minimises the relaxed objective up to its tolerance. Finding: NSlackSSVM compares answers by unary marginals only and so drops a strongly violated constraint that differs in its pairwise marginals.", "quantifier": "all graphs, numbers of states, weights, labellings, class weights, data sets, optima returned, QP solvers, learner parameters", "why_tests_cant": "A test sees the weights after one training run; it cannot compare the objective with its minimum over all weights nor bound the rounding error for every optimum of a degenerate program.", "anchors": ["pystruct/models/crf.py:62-184", "pystruct/models/graph_crf.py:157-215", "pystruct/models/base.py:60-89", "pystruct/utils/inference.py:7-83", "pystruct/inference/inference_methods.py:284-427", "pystruct/learners/n_slack_ssvm.py:206-238", "pystruct/learners/one_slack_ssvm.py:370-400"]}
{"id": "C88", "title": "Inexact inference costs at most its error", "statement": "When inference misses the best output by at most eps: the n-slack learner that stops for lack of constraints is optimal up to C n (1e-5 + eps); the one-slack learner up to C n (tol + eps), and the objective it reports is below the true one by at most C n eps; so is the value of BaseSSVM._objective and the primal part of the Frank-Wolfe duality gap, and a gap below tol certifies tol + C n eps; the online perceptron with constant rate makes at most (R2 + 2 eps)|u|^2/g^2 mistakes and stops; the loss of a prediction is at most its hinge loss plus eps, and margins above eps make predictions right. Exact oracles are those with eps = 0. GraphCRF passes on the error of its solver; QPBO, which rounds potentials to thousandths, has eps = (nodes+edges)/500. Neither the Frank-Wolfe certificate nor the mistake bound holds without the eps term.", "quantifier": "all tasks, models, data sets, oracles with error eps, QP solvers, schedules, learner parameters", "why_tests_cant": "A test sees the outputs of one approximate solver on some weights; it knows neither the true optimum nor the true hinge losses to compare with.", "anchors": ["pystruct/learners/n_slack_ssvm.py:206-400", "pystruct/learners/one_slack_ssvm.py:241-500", "pystruct/learners/frankwolfe_ssvm.py:108-290", "pystruct/learners/structured_perceptron.py:69-170", "pystruct/learners/ssvm.py:66-92", "pystruct/utils/inference.py:20-83", "pystruct/inference/inference_methods.py:235-281"]}
{"id": "C89", "title": "The scripts show what they say", "statement": "load_letters puts the letters of a word side by side and they can be read off the image; plot_grid draws lines half way between cells; plot_letters.py splits words and labels by fold without loss, and its transition picture is what the chain score adds for consecutive letters; the three weight pictures of plot_directional_grid.py are the unary, horizontal and vertical weights; plot_latent_node.py joins every cell once to the hidden node of its 2x2 patch, builds instances LatentNodeCRF accepts, and the boxes of its data set are patches; its plot_boxes works with hidden nodes in Python 2 and raises TypeError in Python 3; the class weights of image_segmentation.py sum to 21 and give classes the same total weight and constant predictions the same loss, if all classes up to the largest occur, and are not finite otherwise, as with void label 255; its validation score is the share of right non-void superpixels.", "quantifier": "all words, folds, weights, pictures, label lists, predictions", "why_tests_cant": "The scripts are not tested; a picture with rows and columns or blocks exchanged looks as plausible as the right one.", "anchors": ["pystruct/datasets/dataset_loaders.py:22-42", "pystruct/utils/plotting.py:34-35", "examples/plot_letters.py:43-86", "examples/plot_directional_grid.py:50-57", "examples/plot_latent_node.py:19-86", "examples/image_segmentation.py:38-64"]}
{"id": "C90", "title": "The comparison with SVM^struct compares the same problem", "statement": "If the program svm_multiclass_learn minimises |w|^2/2 + c/n * slacks with loss 100 up to e, then MultiSVM(C).fit gives 100 times weights that are minimal up to e/10000 for the problem OneSlackSSVM(MultiClassClf(), C) solves, and conversely; the weights of the two learners are close; predict undoes the shift of the labels and agrees with MultiClassClf wherever one class is best; score is the share of right predictions; predict and decision_function raise IndexError for a single sample.", "quantifier": "all class numbers, feature numbers, C, data sets, programs meeting the documented behaviour, weights", "why_tests_cant": "The external programs are not available to tests, and a wrong scaling of C would only shift a curve in a plot.", "anchors": ["examples/multiclass_comparision_svm_struct.py:46-86", "pystruct/models/unstructured_svm.py:133-330"]}
{"id": "C91", "title": "switch_to gives the guarantee of the second inference method", "statement": "A fit with switch_to that stops by itself has switched; its weights are as close to the optimum as the second inference method allows, whatever allowed outputs the first one returned; with enough iterations the fit does stop by itself; if the first method finds nothing in the first round, OneSlackSSVM does exactly what the second method would with one iteration less, while NSlackSSVM raises UnboundLocalError before it can switch.", "quantifier": "all tasks, samples, oracles returning allowed outputs, exact QP solvers, parameters without pruning for convergence", "why_tests_cant": "Whether switching repairs the work of a bad first oracle depends on every constraint it left behind; tests train with two good ones.", "anchors": ["pystruct/learners/one_slack_ssvm.py:471-497", "pystruct/learners/n_slack_ssvm.py:283-388", "examples/plot_exact_learning.py:21-34"]}
{"id": "C92", "title": "The iterations of LatentSSVM settle", "statement": "Each iteration of LatentSSVM lowers the latent objective by at least a quarter of the squared distance the weights move, up to twice the tolerance eps of the base learner; hence among any first n iterations some one moves them by at most 4(C L + eps)/n + 8 eps, L being the hinge sum at zero weights; a run that stops by itself ends within eps of the best weights that leave its completion a best one; with exact fits no completion is trained on twice, so the number of fits is at most the number of completions and a larger latent_iter is never used up; with any positive tolerance the last claim is false.", "quantifier": "all tasks with observed loss, models with exact inference and exact latent, base learners within eps of the optimum of each fit, samples, latent_iter, initial completions", "why_tests_cant": "Convergence is a statement about arbitrarily long runs; tests run two or five iterations on one data set.", "anchors": ["pystruct/learners/latent_structured_svm.py:57-125", "pystruct/models/latent_graph_crf.py:172-186"]}
{"id": "C93", "title": "What primal_objective_curve_ records", "statement": "In a fit of NSlackSSVM whose batch is the whole sample, the entry of a round is the primal value of the weights before the round plus half the change of the squared norm during it; corrected by that change it is above every entry of objective_curve_, but as recorded it can be below the entry of objective_curve_ of the same round and below the optimum. With several batches the entry is C times the hinge losses of the batches, each at the weights before its batch, plus half the squared norm of the weights after the round, and within C n D R of the primal value of those weights if the weights of the round stay within D of them and features differ by at most R. When the fit ends because nothing new is found, its last two entries are the primal value of the returned weights, whatever the batches. In OneSlackSSVM every entry is at most the primal value of the weights of its round, and equal to it unless cached_constraint_ marks the round, so that the difference to any entry of objective_curve_ bounds their distance from the optimum; the entry of a marked round can be below the optimum; the final entry of both is the primal value of the returned weights.", "quantifier": "all tasks, models with exact loss-augmented inference (before and after switch_to), sound QP solvers, samples, batch sizes, parameters", "why_tests_cant": "The curves are compared with each other for every round of every run; tests only look at the last values of a few fits, or check that the curve is decreasing on one data set.", "anchors": ["pystruct/learners/n_slack_ssvm.py:283-400", "pystruct/learners/one_slack_ssvm.py:460-543"]}
{"id": "C94", "title": "What objective_curve_ of the subgradient learners records", "statement": "SubgradientSSVM appends, for every pass that does not end the training, the objective of the exposed weights (the attribute w) after that pass, and at the end the objective of the weights it returns. SubgradientLatentSSVM with n_jobs=1 appends C times the positive slacks it met on the way, each at the weights before its step, plus half the squared norm of the exposed weights at the end of the pass. With n_jobs=-1 it does the same with the slacks of each batch, all at the weights before the batch. With exact inference and completion each such slack is the latent hinge loss at those weights. If the weights stay within D during the pass and features differ by at most R, the entry is within C n R D of the latent objective at the end of the pass. It need not be an upper bound: an entry can be below the latent objective of all weights.", "quantifier": "all tasks, (latent) models, samples, parameters, schedules, warm and cold starts; the meaning of the slacks: models with exact loss-augmented inference and completion", "why_tests_cant": "The claim ties every entry of every run to the weights of that moment; tests look at the length of the curve or at its last value.", "anchors": ["pystruct/learners/subgradient_latent_ssvm.py:133-237", "pystruct/learners/subgradient_ssvm.py:154-243"]}
{"id": "C95", "title": "A latent CRF with one node is a latent multiclass SVM", "statement": "On graphs of one node without edges, a LatentGraphCRF that was set up by its constructor predicts the first state with the highest score among all states of all labels, each state having its own block of weights; predict gives the label that owns this state, and LatentSSVM.score is the fraction of right labels. Loss-augmented inference adds one to the states of the other labels, and the constraint found for a sample completed with state h has slack max_t(score(t) + [label(t) != label(h)]) - score(h). Completing a label gives its first best state as long as one of its states scores more than -100 times the larger of 1 and the best score; if all of them score less, it gives the first state of the label, whatever the scores.", "quantifier": "all numbers of labels and of states per label, features, weights, instances and labels; every solver that returns the first best state of a node without edges (the 'unary' method is one)", "why_tests_cant": "An example script compares two accuracies on one data set; the claim is about every data set and every weight vector, and the limit on the scores is outside what any test reaches.", "anchors": ["examples/plot_latent_svm_as_crf.py:1-71", "pystruct/models/latent_graph_crf.py:144-206", "pystruct/learners/latent_structured_svm.py:129-158"]}
{"id": "C96", "title": "Subgradient learning with a constant learning rate", "statement": "With decay_exponent=0, no momentum and no averaging, and a learning rate lr of at most C n: with batch_size=-1, SubgradientSSVM.fit makes all max_iter passes, and the squared distance of its weights to any weights u whose objective is within eps of the minimum is at most q^E |w0 - u|^2 + (1 - q^E)(2 eps + (1 - q) G), where q = 1 - lr / (C n), E = max_iter and G = 4 (C n)^2 R2 (features differ by at most R2, squared); the objective is accordingly close. With learning_rate='auto' (lr = C n) nothing is carried over: the weights are C times the difference between the features of the training labels and those of one labelling, so with C = 10 and one sample no number of passes gets within 1 of the minimum. Online or with equal mini-batches (m steps a pass; online with break_on_no_constraints=False) fit appends one objective a pass and a last one to objective_curve_, and the best of the objective at the start and those after all passes but the last is at most f(u) + C n |w0 - u|^2 / (2 lr m E) + 2 m lr C n R2 for all weights u.", "quantifier": "all tasks with exact batch oracles, samples, C, learning rates in (0, C n], numbers of passes, shuffles, cold and warm starts from weights in the ball", "why_tests_cant": "The distance is a bound for every number of passes and every rate; tests fit a few settings for some hundred passes and look at the score.", "anchors": ["pystruct/learners/subgradient_ssvm.py:129-152", "pystruct/learners/subgradient_ssvm.py:154-243", "pystruct/learners/subgradient_ssvm.py:280-312"]}
{"id": "C97", "title": "Negative indices of (anti)symmetric edge features", "statement": "EdgeFeatureGraphCRF accepts (anti)symmetric edge feature indices exactly if none is n_edge_features or more and no number is in both lists; negative ones count from the end in joint_feature. So indices in [-D, D) give the model with the rows they mean, and without negative indices the checks guarantee that no row is declared twice; but [D-1] and [-1] pass the checks and joint_feature is then zero in all entries of the last edge feature for every input and labelling, and an index below -D passes the checks and makes every joint_feature raise IndexError.", "quantifier": "all numbers of states, features and edge features, integer index lists, valid inputs and labellings", "why_tests_cant": "Tests only use non-negative indices and check that equal or too large ones are refused.", "anchors": ["pystruct/models/edge_feature_graph_crf.py:64-92", "pystruct/models/edge_feature_graph_crf.py:146-206"]}
{"id": "C98", "title": "Full-batch subgradient learning with inexact inference", "statement": "SubgradientSSVM with full batches, a constant rate lr of at most K = C n, no momentum and no averaging, whose loss-augmented inference misses the best output by at most eps: training runs all passes, the weights stay within K R, objective_curve_ gets one value a pass and one for the result, and the best of the recorded values (start and all passes but the last) exceeds the objective of any weights u by at most C n eps + K/lr |w0-u|^2/(2 E) + 2 lr K R2. The recorded objective of any weights is at most the true one and falls short of it by at most C n eps.", "quantifier": "all tasks, models, data sets, errors eps, reshufflings, learning rates up to C n, numbers of passes, starting weights within the ball, cold and warm starts", "why_tests_cant": "A test with an approximate solver sees recorded objectives only; whether they are near the minimum and near the true objective cannot be read off a run.", "anchors": ["pystruct/learners/subgradient_ssvm.py:129-243", "pystruct/learners/ssvm.py:66-92"]}
{"id": "C99", "title": "Momentum in subgradient learning", "statement": "A step of SubgradientSSVM moves by the learning rate times (1 - momentum) times the plain direction dj - w/(C n) plus momentum times the direction of the step before. Over a whole call of fit, in every mode, each step moves along (1 - momentum) times the sum of all plain directions of this call, each weighted by momentum to the power of its age; directions of earlier calls do not count, also on a warm start. With momentum between 0 and 1 no direction is longer than the longest plain one. With momentum 1 the weights never change. The same holds for SubgradientLatentSSVM, which keeps its random initial weights with momentum 1.", "quantifier": "all models, data sets, modes (online, mini-batch, parallel), averagings, learning rates, reshufflings, histories, momentum values", "why_tests_cant": "Tests use the default momentum 0; a wrong weighting of the old gradient would still train, only differently.", "anchors": ["pystruct/learners/subgradient_ssvm.py:129-152", "pystruct/learners/subgradient_ssvm.py:154-312", "pystruct/learners/subgradient_latent_ssvm.py:108-237"]}

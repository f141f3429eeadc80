# Formal model of pystruct in Rocq (Coq 8.16.1)

## 1. Method

The Python/Cython code in `/repo/pystruct` is modelled by total, computable Gallina
functions, one per Python function, branch by branch.  Every definition of the model
carries a comment with the file and lines it models and any simplification made.
Exceptions are values (`Err ValueError`, `Err IndexError`, ...).  Components the code
calls but does not contain (ad3, cvxopt, qpbo, opengm, KMeans, joblib, pickle,
random numbers) are *parameters* of the model: a theorem quantifies over every answer
they can give, or names the assumption made about them ("exact solver").

Layout of `rocq/theories`:

| directory     | content |
|---------------|---------|
| `Base/`       | rational arithmetic, sums, vectors, argmax: definitions and lemmas that know nothing about pystruct |
| `Model/`      | the model of the code: definitions only, no proofs |
| `Spec/`       | independent specifications (energy of a labelling, acyclic graph, grid neighbours, loss, structured hinge, ...): definitions only |
| `Proofs/`     | lemmas and invariants |
| `Properties/` | one file per group of properties: only the theorems named in `MANIFEST.json`, an `Example` beside each showing the hypotheses can be met on a non-trivial case, and `Print Assumptions` |

### Numbers

IEEE doubles are modelled as exact rationals `Qc` (canonical rationals of the standard
library: equality is Leibniz equality, arithmetic is computable, no axioms).  So
rounding, overflow, NaN and infinities are **not** modelled; where the code uses
`-inf` (Viterbi) the model uses `option Qc` with `None = -inf`.  Integer labels and
node indices are `nat`, except where the code subtracts offsets (typed CRFs), where they are `Z`.

### Arrays

A 1-d array is a list, a 2-d array a list of rows, with the shape carried explicitly where
the code looks at it.  Where numpy would raise IndexError/ValueError the model returns `Err`.
Row-major `reshape`/`ravel`/`hstack` are modelled literally on lists so that index
arithmetic is part of what is verified.

## 2. Trusted base

* Coq 8.16.1's kernel (and `vm_compute`, used for concrete witnesses).
* The hand translation of the Python code into Gallina (checked by reading; each
  definition cites its lines).
* The modelling choices above (exact rationals instead of doubles; numpy semantics as
  written in `Model/Numpy.v`).
* `Print Assumptions` of every theorem in `Properties/`: "Closed under the global
  context" - no axioms, of the standard library or otherwise.

## 3. Plan per property

For every property the table in `MANIFEST.json` names the theorems; this is where model and argument are.

* C01, C02, C10, C11: `Model/Common.v`, `Model/Sym.v`, `Model/GraphCRF.v` (unary/pairwise potentials, joint_feature literally with
  one-hot marginals, matrix products, ravel/hstack). Double sums over nodes/edges and states; adjointness of expand/compress.
* C03, C19, C20: `Model/Loss.v`, `Model/CRF.v`, `Model/Score.v`: the nested loop of `src/utils.pyx`, Hamming losses, `score`.
* C04: `Model/Viterbi.v`, `Model/ChainCRF.v`: the DP with -inf start and back pointers; induction on the number of processed nodes:
  score[i][k] is the maximum over prefixes ending in state k.
* C05, C06, C07: `Model/GraphFunctions.v` (is_forest's DFS with explicit stack, the BFS of maxprod), `Model/MaxProd.v` (is_chain, message
  passing). is_forest is proved against "taking any edge away disconnects its ends" (`Spec/GraphTheory.v`); tree max-product: invariant of
  the BFS order, then max-marginals by induction over the traversal order; loopy: invariants over the sweep loop.
* C08, C60: `Model/LP.v`, the triple loop producing (data, I, J); feasible points = local polytope; on forests the polytope is the set of
  mixtures of labellings (gluing mixtures along an edge, induction on the edges).
* C09, C46, C47, C48, C52: `Model/Inference.v`: dispatch, every inference method, solvers as parameters.
* C12, C13: `Model/Grid.v`, slicing of the index grid; membership and NoDup.
* C14: `Model/EdgeFeature.v`; the (anti)symmetry invariant by induction on linear combinations.
* C15-C18: `Model/Unstructured.v`, `Model/MultiLabel.v`, `Model/BatchInstances.v`.
* C21, C22: `Model/Learner.v`, `Model/Instances.v`: an abstract model object (joint_feature, loss, oracle) and the concrete ones.
* C23-C27, C49, C50: `Model/QP.v`, `Model/NSlack.v`, `Model/OneSlack.v`: the quadratic programs and the cutting-plane loops with oracle parameters
  (QP answers, inference answers, interruption point).
* C28, C29, C31, C54: `Model/FrankWolfe.v`; convex-combination invariant, weak duality, quadratic line search.
* C30, C32, C55: `Model/Subgradient.v`.
* C33, C34: `Model/Perceptron.v`; Novikoff with Cauchy-Schwarz over Qc.
* C35-C41, C56, C57: `Model/LatentGraph.v`, `Model/LatentNode.v`, `Model/LatentLearner.v`, `Model/SubgradientLatent.v`, `Model/LatentSSVM.v`.
* C42-C44, C58: `Model/Typed.v`.
* C45: `Model/Logging.v`: a small file-system state machine with failure points.
* C51, C59: `Model/Predict.v`; C53: `Model/Initialize.v`.
* C61: `Model/SVM.v`, the binary SVM: dual program, KKT, intercept. C62: `Model/DownhillSimplex.v`. C63: `Model/LatentGrid.v`.
* C64: rounds of the cutting-plane learners, on `Model/OneSlack.v` and `Model/NSlack.v`: dual gain per round (one-slack), working sets without repetition and monotone objective (n-slack).
* C65: `Model/MoreInstances.v` turns the grid, edge-feature and multi-label models into the `smodel` records the learners use; tasks in `Spec/MoreTasks.v`; near-optimality of whole training runs follows from C09, C12–C14, C18 (exactness), C23 (lower bound) and C64 (termination).
* C66: the learners run the same on a model and on the model precomposed with a projection onto a subspace containing the joint features (`Proofs/SpanProofs*.v`); instance: the weights of EdgeFeatureGraphCRF that respect the declarations (`Proofs/EdgeSpan.v`).
* C67: random generators as a state monad over a stream of naturals with outcomes Done, Raised, Running (`Model/Datasets.v`); images as functions of the pixel (`Spec/DatasetSpec.v`); a small Hoare calculus `sat` (`Proofs/DatasetProofs*.v`).
* C68: curvature bounds from R and L (`Spec/FWRateSpec.v`); batch rate by induction on the dual gap; in block-coordinate mode a pass either gains `bc_gain` in the dual or ends with a small duality gap, and the number of gains is bounded by weak duality; for averaging a weighted potential (`Proofs/FWRate*.v`).
* C69: a fit as a list of bookkeeping actions (`Model/Curves.v`), counted per kind; alignment, order and logger calls follow from the counts of every prefix (`Proofs/CurveProofs*.v`).
* C70: an epoch is an incremental descent on a sum of strongly convex functions; telescoping over epochs bounds the best epoch, a bound on the movement per epoch carries it to the last (`Proofs/SubgradientRate*.v`).
* C71: the objective is 1-strongly convex, so two nearly minimal weight vectors are near their midpoint; Cauchy-Schwarz carries this to scores (`Proofs/Agree.v`).
* C72: weights of late epochs are nearly minimal, hence close to one point; steps inside an epoch move little; the share of early iterates in the average goes to zero (`Proofs/SubgradientAvg*.v`).
* C73: compute both models on converted inputs; the library is only assumed to treat a one-element list like its element (`Proofs/SingleType*.v`).
* C74: simulation, sample by sample and step by step (`Proofs/Alike*.v`).
* C75: compute both sides; the learners follow by C74 (`Proofs/SameModel*.v`).
* C76: unfold the nine slice assignments once per position; edges by the grid lemmas of C13 (`Proofs/Snakes.v`).
* C77: induction over the walk with the visited cells as invariant; parity of row + column for the even case (`Proofs/HiddenSnakes*.v`).
* C78: invariant over the slice assignments (blocks of different types are disjoint), block positions of the renumbered weights, sums reordered along the permutation (`Proofs/SwapTypes*.v`).
* C79: positions of flat labels, block offsets of the weights with two types, counting of truth values for the constraints; swap via C78 (`Proofs/TwoTypes*.v`).
* C80: invariant of the walk (sites of the board = visited sites, distance from the centre), picture of a walk, a picture determines its walk, counting of walks (`Proofs/GenSnakes*.v`).
* C81: relational (lockstep) proofs over the five learner loops for isometric weights; instances: padding by zeros and permuted features (`Proofs/Similar*.v`, `Proofs/OneNode*.v`, `Proofs/FeatureOrder.v`).
* C82: acyclic edge sets as independent sets (exchange), Kruskal's algorithm, counting components, forest max-product for all forests (`Proofs/Kruskal.v`, `Proofs/ChowLiu.v`).
* C83: hinge losses in closed form, objectives decomposed over blocks of weights (`Proofs/Binary.v`).
* C84: lists of attribute values after each assignment (`Model/Interrupt.v`), invariants of C23, C24, C29 at each of them.
* C85: settled edges as an invariant of a sweep (`Proofs/Loopy2.v`), reparametrisation of the score by beliefs and an injective assignment of edges to nodes (`Proofs/Loopy.v`, `Loopy3.v`).
* C86: two-label form of the relaxation, peeling off threshold labellings (`Proofs/BinaryLP*.v`).
* C87: the relaxed task of the learners (`Model/RelaxedCRF.v`, `Spec/RelaxedSpec.v`), Fourier-Motzkin elimination for the existence of optima.
* C88: learners with an inexact oracle (`Spec/NearSpec.v`), stated against the exact hinge losses.
* C89: computations in the example scripts and in the data loader (`Model/Scripts.v`).
* C90: the wrapper around SVM^multiclass (`Model/SvmStruct.v`), with the external programs specified in `Spec/SvmStructSpec.v`.
* C91: what `switch_to` guarantees when the first inference method is arbitrary (`Proofs/Switch.v`).
* C92: convergence of the LatentSSVM iterations (`Spec/SettleSpec.v`, `Proofs/Settle*.v`).
* C93: what the primal curves record (`Proofs/PrimalCurve*.v`).
* C94: what objective_curve_ of the subgradient learners records (`Proofs/LatentCurve*.v`, `Proofs/ParallelCurve.v`).
* C95: a latent CRF with one node is a latent multiclass SVM (`Proofs/LatentOneNode*.v`).
* C96: a constant learning rate in SubgradientSSVM (`Proofs/SubgradientConstant*.v`).
* C97: negative (anti)symmetric indices (`Model/SignedIndices.v`).
* C98: full-batch subgradient learning with a constant rate and an inexact oracle: recorded objectives against the true ones.
* C99: momentum: the fading sum of directions, its length, momentum 1.

Nothing on the list is considered inexpressible; what is left out is listed in section 5.

## 4. Where the code does not do what one would expect

Each of these is a theorem about the model (names in brackets); theorems whose name ends in `_refuted` show a
concrete input on which the expected statement fails.

**Inference**
* `is_chain` accepts repeated edges, so a two-node multigraph is decoded as a chain and one edge is ignored [C04_parallel_edges_taken_for_chain_refuted].
* Tree max-product with ties decodes a labelling that need not be optimal [C06_tree_max_product_with_ties_refuted]; so does rounding an LP
  optimum [C60_ties_refuted]; on cycles the LP value exceeds every labelling's score [C60_cycle_refuted].
* QPBO multiplies by 1000 and casts to int32: potentials beyond 2^31/1000 wrap round and the sign of an edge can change [C52].
* `setInferenceException` of typed models has no effect; fractional solutions are rounded silently [C58]. Constraints with method `ad3` raise TypeError.

**Models**
* `compress_sym` with its default make_symmetric=True doubles the off-diagonal entries, so it is the adjoint of `expand_sym`, not its inverse [C11_default_roundtrip_refuted].
* `EdgeFeatureGraphCRF` with (anti)symmetric features: the weights must respect the declaration, otherwise score and w.joint_feature differ [C14_arbitrary_weights_refuted].
* `MultiLabelClf`: class_weight has n_labels entries but is indexed by the binary labels: with one label the loss raises IndexError and loss augmentation reads out of bounds [C18].
* `initialize`: labels with gaps are accepted and fail later; only X[0] is inspected; a failed call leaves n_features set; `MultiLabelClf(n_features=f)` without n_labels is a TypeError [C53].
* `LatentGraphCRF.latent`: the -100*max_entry penalty is soft and can be beaten by pairwise terms, after which a suboptimal fallback is returned [C35_latent_best_refuted]; `base_loss` of relaxed labels is a TypeError.
* `LatentNodeCRF`: kmeans_init with n_hidden = 0 uses the features of the wrong nodes [C39_kmeans_no_hidden_refuted]; a hidden node can receive an observed state [C39_latent_label_refuted]; max_loss returns None without class_weight; an isolated last node is rejected; integer edge features make (anti)symmetrisation truncate.
* `LatentDirectionalGridCRF` does not pass neighborhood on: any value but 4 is accepted, then every kind of inference raises ValueError [C63_directional_8_refuted]. `init_latent` of both latent grids needs arrays; lists, which fit accepts elsewhere, raise AttributeError [C63_init_lists_refuted]. k-means initialisation works only if each occurring label occurs at least as often as it has states [C36_init_succeeds_iff, C63_init_succeeds_iff].
* Typed CRFs: `initialize` on a list checks nothing, extra arrays are silently ignored, labels of the wrong type in loss augmentation read out of bounds, unflattenY fails on None features [C42-C44].

**Learners**
* n-slack with negativity_constraint is not the optimum of the constrained problem [C23_negativity_optimum_refuted]; training that starts from an
  inherited constraint set without the initial constraint need not be near-optimal [C24_without_initial_constraint_refuted]; no constraint in the first round is an UnboundLocalError;
  warm start with other data is an IndexError [C24]; zero-loss violated labellings are skipped.
* one-slack: the ground-truth constraint can be pruned [C25_initial_constraint_stays_refuted]; pruning counts inactive rounds without resetting the counter [C26_consecutive_refuted]; the cache keeps inference_cache+1 entries [C27_bound_refuted];
  cached relaxed results are compared with `np.all(a, b)` (TypeError); rescale_C with the cache misses an argument; an
  interruption in certain windows leaves constraints_ and alphas of different length; tol > 1 + mean loss gives UnboundLocalError [C27, C49, C50].
* Frank-Wolfe: refitting keeps the old w while w_mat restarts at zero, so weak duality is lost [C28_refit_bound_refuted]; max_iter=0, check_dual_every=0, C=0 batch, BinaryClf, rescale_C raise [C54]. Batch mode updates the weights once more after the gap that ends training was measured; with fixed steps the returned weights can be worse than the tolerance [C68_batch_certificate_refuted].
* Subgradient: parallel mode sums instead of averaging, so its step is that of another objective [C32_parallel_objective_refuted]; an early stop can return weights with positive hinge loss [C55_early_stop_weights_refuted]; mini-batch mode never stops early; t and w are not reset.
* SubgradientLatentSSVM: n_jobs other than 1 and -1 raises AttributeError (`self.j_jobs`); `_objective` and `score` compute the loss between an observed label and a latent one, charging perfect predictions [C38_objective_refuted, C56].
* LatentSSVM: assigning C overwrites the base learner's w with the number C [C41_C_refuted]; Frank-Wolfe and perceptron bases raise TypeError [C40]; `initialize=` is ignored.
* Perceptron: `raise NotImplemented(...)` is a TypeError; averaging that never started returns zeros; max_loss 0 gives nan and no early stop [C34].
* SVM: the intercept averages over all support vectors, also those inside the margin or misclassified, so it is not the optimal one [C61_intercept_refuted]; training data of one class only raise ZeroDivisionError [C61_one_class].
* PrimalDSStructuredSVM ("a sanity check on all other implementations") minimises mean hinge + |w|^2/(2C), i.e. uses C/n where the others use C, so with the same C its optimum is not theirs [C62_same_C_refuted]; it never calls model.initialize (the model takes an initialised model object).
* predict/score: fewer constraints than samples silently drop samples; X shorter than Y counts the missing predictions as correct [C20_missing_predictions_refuted, C51]; results depend on n_jobs for models without the keyword `constraints` [C51_constraints_n_jobs_refuted]; loss_curve_ is not reset by a new fit [C59_refit_refuted].
* `one_hot_colors` of the snake examples gives zero rows for black, magenta and white pixels [C76_one_hot_refuted].
* Hidden snakes: isSnakePresent takes loops for snakes when nCell is odd [C77_present_odd_refuted] and needs a background border [C77_present_border_refuted]; distorting may change nothing [C77_change_refuted]; augmentWithNoSnakeImages forgets to pass nCell and adds pictures with snakes [C77_augment_refuted]; shorten_snakes loses snakes in the first row or column [C77_shorten_border_refuted].
* swap_node_types is wrong for permutations that are not their own inverse [C78_cycle_refuted, C78_swap_permutation_error] and does not terminate when constraints are given [C78_constraints_refuted]; its callers in the training part unpack three results into two names (ValueError, by reading).
* makeItEasy ("add the picture label in a feature") overwrites all seven picture features [C79_easy_overwrites]; buildConstraints of plot_snakes_constraints.py leaves the last of the ten cells free [C79_tail_unconstrained_refuted]; feature 5 and 6 of a picture are one less than the height and width of the snake [C79_picture_features].
* genSnakes does not end when more snakes are requested than exist [C80_ends_refuted]; its byte labels wrap from 256 cells on [C80_labels_refuted]; the squares of plot_many_snakes have ncell + 1 pixels but the pictures up to ncell + 2, so that a straight snake in the last row or column raises ValueError [C80_grids_refuted].
* A one-node GraphCRF and MultiClassClf agree only for inputs of the right size: MultiClassClf broadcasts an input with a single number over all features, GraphCRF raises ValueError [C81_one_node_broadcast_refuted].
* chow_liu_tree need not return a tree: csr_matrix drops zeros, so labels without mutual information stay unconnected, and for independent labels there is no edge at all [C82_chow_liu_tree_refuted]; the tree model with max-product then raises an exception [C82_tree_model].
* The same C means different problems in BinaryClf, a two-class MultiClassClf and a MultiLabelClf without edges: C, 2C and 4C give the same classifiers; on the decision boundary BinaryClf answers +1 and MultiClassClf class 0 [C83_two_classes_to_binary, C83_labels_to_binary, C83_two_classes_predict].
* Interrupting NSlackSSVM while two unused constraints of a sample are deleted leaves more constraints than counters, and fit with constraints=svm.constraints_ raises IndexError [C84_ns_resume_refuted]; interrupted before the first constraint it raises ValueError [C84_ns_resume_empty].
* Interrupting FrankWolfeSSVM in batch mode before the first dual value is recorded makes fit raise IndexError (`objective_curve_[-1]`, line 306); an interrupt between lines 180 and 181 leaves the primal curve longer than the dual one [C84_fwb_points, C84_fwb_bounds].
* Without averaging FrankWolfeSSVM updates self.w in place: interrupted between `w -= w_mat[i]` and `w += w_mat[i]` the learner keeps weights without the block of that sample, possibly all zero, next to an l that includes it [C84_fw_removed, C84_fw_bound_refuted].
* iterative_max_product normalises the backward message with the maximum of the old message (maxprod.py 156) instead of the new one: with one label and two outgoing edges per node the messages grow linearly and the run never converges [C85_messages_grow]; with damping=0 the message along an edge to a leaf flips between two values [C85_undamped_flips].
* A converged loopy max-product run with clear decisions can return a labelling that is not optimal [C85_two_cycles_refuted].
* The LP relaxation is exact for two labels when edges reward agreement, but not for three: on a triangle rewarding agreement the reported value exceeds every labelling's score by at least 1/2 [C86_three_labels_refuted].
* Relaxed training: `NSlackSSVM._check_bad_constraint` compares only the unary marginals of tuples (unwrap_pairwise), so an exact answer violated by 6 is discarded as a duplicate of a satisfied constraint [C87_n_slack_duplicates_refuted].  The relaxed hinge can exceed the hinge over labellings [C87_equal_in_general_refuted].
* Inexact inference: the duality gap reported by FrankWolfeSSVM certifies nothing about the tolerance alone; with an oracle off by 1 it is 0 on weights 3/4 above the optimum [C88_certificate_without_error_refuted].
* examples/plot_latent_node.py stops with TypeError in Python 3 before training the latent model: `reshape(size / 2, size / 2)` [C89_plot_boxes_python3_refuted].
* examples/image_segmentation.py: class weights become 0 and nan when a class does not occur, in particular when the training labels contain the void label 255, which is only removed from the validation set [C89_class_weights_absent, C89_class_weights_void].
* examples/multiclass_comparision_svm_struct.py: MultiSVM.predict raises IndexError for a single sample [C90_predict_single_refuted].
* NSlackSSVM with `switch_to`: if the first inference method finds no violated constraint in the first round, fit raises UnboundLocalError instead of switching; OneSlackSSVM switches [C91_n_slack_at_once_refuted, C91_one_slack_at_once].
* LatentSSVM need not stop by itself: with a base learner that is exact up to any fixed positive tolerance, the completions may alternate for ever, so only latent_iter ends the run; with exact fits they cannot [C92_ends_refuted, C92_ends].
* `NSlackSSVM.fit` computes its `primal_objective` after the QP of the round was solved, from the slacks of the old weights and the norm of the new ones (lines 346-349); the value belongs to no weight vector and can be below the optimum, so the gap between the two curves can be negative [C93_nslack_gap_refuted]. `OneSlackSSVM.fit` computes it before the QP and is right [C93_oneslack_gap], except in rounds whose constraint comes from the cache, where the entry can be below the optimum too [C93_oneslack_cached_gap_refuted].
* `SubgradientLatentSSVM.fit` records in `objective_curve_` a sum of slacks at the changing weights of a pass and the norm at its end (lines 169, 204-205, 217), not the objective of any weights; such an entry can be below the smallest value of the latent objective [C94_latent_entries_refuted]. `SubgradientSSVM.fit` evaluates the objective anew and is right [C94_plain_entries].
* `LatentGraphCRF.latent` on a single node completes a label with its first state, not its best one, when all states of the label score below -100 times max(1, best score): the clamp of latent_graph_crf.py lines 177-178 leaves them worse than the excluded states, and lines 183-185 repair the label only [C95_completion_fallback].
* `SubgradientSSVM(decay_exponent=0, batch_size=-1)` with the default `learning_rate='auto'` takes steps that replace the weights altogether (rate C n against a regularisation term w / (C n), subgradient_ssvm.py lines 131, 136, 188): the weights can jump to and fro for ever [C96_auto_forgets, C96_auto_refuted].
* `EdgeFeatureGraphCRF` checks its (anti)symmetric indices as given, but uses them as numpy indices: `symmetric_edge_features=[D-1], antisymmetric_edge_features=[-1]` passes the check that no feature is in both lists and disables that feature; an index below -D passes and raises IndexError later (edge_feature_graph_crf.py lines 81-92, 196-202) [C97_disjoint_refuted, C97_range_refuted].
* SubgradientSSVM with an oracle off by 1 may learn nothing and record objective 0 at every pass, while the true objective is 3 [C98_values]; what is recorded is never above the true objective and at most C n eps below [C98_recorded].
* SubgradientSSVM(momentum=1) is accepted and learns nothing [C99_one]; a warm start forgets the momentum gathered before [C99_fit].
* A single-type NodeTypeEdgeFeatureGraphCRF is not exactly EdgeFeatureGraphCRF: edges to missing nodes [C73_missing_node_refuted], zero edge features [C73_no_edge_features_refuted], inference_exception [C73_exception_refuted].
* SubgradientSSVM with break_on_no_constraints=True (the default) can stop in the second epoch far from the optimum, whatever max_iter: the first step of the default schedule may overshoot, and one epoch without positive slacks ends training [C70_default_stop_refuted]. With n_jobs != 1 it converges to the minimiser for another C (C*n/n_batches) [C70_parallel_refuted], with a batch_size that does not divide n to that of a reweighted objective [C70_uneven_refuted].
* plot_learning: after KeyboardInterrupt during the training loss (NSlackSSVM), during the QP (OneSlackSSVM) or between two appends (FrankWolfeSSVM) the curves have different lengths and the plot raises [C69_interrupt_*_refuted]; a subgradient fit that stops in its first epoch cannot be plotted over time [C69_first_epoch_refuted]; StructuredPerceptron and DownhillSimplexSSVM have no objective_curve_ although "all learners" are supported [C69_all_learners_refuted]; the bare except draws the training losses over 0, 1, 2, ... below an axis in minutes whenever the number of iterations is a multiple of show_loss_every [C69_loss_axis_refuted]; Frank-Wolfe values are drawn one stamp late [C69_late_refuted]; FrankWolfeSSVM ignores show_loss_every [C69_frankwolfe_losses_refuted]; a warm start of SubgradientSSVM subtracts the time of day from all stamps [C69_warm_stamps_refuted].
* SaveLogger: saving truncates the file before pickling, so a failure destroys the previous state and leaves the learner's cache removed [C45_atomic_refuted, C45_failure_harmless_refuted]; "%d" with 'final' is a TypeError; save_every=0 a ZeroDivisionError; `load` opens the literal pattern.

**Data sets**
* `generate_crosses` never ends for total_size 5 to 7 with two or more crosses and for 8 and 9 hangs if the first cross is in the middle; `generate_crosses_explicit` likewise for size 3 to 5 [C67_crosses_end_refuted, C67_crosses_8_9_refuted].
* `generate_bars` takes the number of channels from the number of distinct labels drawn: with default parameters and only vertical bars it is an IndexError [C67_bars_refuted].
* `generate_crosses_latent` labels with 0, 2, 3 only; a model that infers its sizes takes 3 states and then fails on label 3 [C67_four_labels_refuted, C67_crosses_latent_usable_refuted].

## 5. What is modelled and what is not

| source file | modelled in | left out |
|---|---|---|
| inference/common.py, _viterbi.pyx, maxprod.py, linear_programming.py | Common, Viterbi, MaxProd, GraphFunctions, LP | solve_lp/`lp_general_graph`'s cvxopt call is a parameter |
| inference/inference_methods.py | Inference, LP, MaxProd | the libraries ad3, pyqpbo, opengm (parameters); option values of a wrong type raise TypeError |
| models/base.py, crf.py, graph_crf.py, chain_crf.py | Loss, CRF, GraphCRF, ChainCRF, Initialize, Predict | `__repr__`; the counter inference_calls (except in n-slack/one-slack statistics) |
| models/edge_feature_graph_crf.py, grid_crf.py, utils/graph.py | EdgeFeature, Grid, SignedIndices | |
| models/unstructured_svm.py, multilabel_svm.py, src/utils.pyx | Unstructured, BatchInstances, MultiLabel, Loss | memory layout of the Cython arrays |
| models/latent_graph_crf.py, latent_node_crf.py | LatentGraph, LatentNode | KMeans (parameter); numpy broadcasting of length-1 label arrays in kmeans_init |
| models/typed_crf.py, node_type_edge_feature_graph_crf.py | Typed | `__repr__`, an unused cache, l_n_features=None |
| learners/ssvm.py | Predict, Learner, Score | `_objective`'s use of the class name |
| learners/n_slack_ssvm.py, one_slack_ssvm.py | QP, NSlack, OneSlack, Interrupt | cvxopt.solvers.qp (parameter); printing |
| learners/frankwolfe_ssvm.py | FrankWolfe, Interrupt, InterruptFW | printing; the random generator is an arbitrary schedule |
| learners/subgradient_ssvm.py, subgradient_latent_ssvm.py | Subgradient, SubgradientLatent, Interrupt | printing; decay_exponent is a natural number; the shuffle is an arbitrary permutation |
| learners/structured_perceptron.py | Perceptron | decay_exponent is an integer; interruptions between two statements of fit |
| learners/latent_structured_svm.py | LatentSSVM | logger, printing |
| utils/inference.py, graph_functions.py, logging.py | Learner, LatentLearner, Exhaustive, Sym, GraphFunctions, Logging, Predict | format conversions other than d, i, u, s |
| learners/svm.py | SVM | cvxopt.solvers.qp (parameter); the kernel is linear, as in the code |
| learners/downhill_simplex_ssvm.py | DownhillSimplex | scipy.optimize.fmin (parameter); a model that was not initialised |
| models/latent_grid_crf.py | LatentGrid | relaxed answers, labellings of the right size but another shape, arrays of objects |
| datasets/synthetic_grids.py | Datasets | the random generator itself (stream parameter); float rounding of the noise |
| plot_learning.py; time stamps, curves, logger and KeyboardInterrupt of the fit methods | Curves, PlotLearning | drawing itself, scales, labels; negative show_loss_every |
| examples/plot_snakes_typed.py: convertToSingleTypeX | Convert | the rest of the scripts |
| examples/plot_snakes.py: one_hot_colors, neighborhood_feature, prepare_data | Snakes | the training script; warnings of label_binarize |
| examples/plot_hidden_snakes.py: isSnakePresent, walkThruSnake, changeOneSnakeCell, distortSnake, augmentWithNoSnakeImages, shorten_snakes | HiddenSnakes | the training script, plotting, the random generator (arbitrary draws) |
| examples/plot_hidden_short_snakes_typed.py: swap_node_types | SwapTypes | printing |
| examples/plot_hidden_short_snakes_typed.py: prepare_picture_data, convertToTwoType, listConstraints*, makeItEasy; buildConstraints* of plot_snakes_constraints.py and plot_hidden_snakes.py | TwoTypes | training, reporting |
| examples/plot_hidden_short_snakes_typed_gen.py: genSnakes, plot_many_snakes, plot_mistakes | GenSnakes | training, drawing |
| examples/svm_as_crf.py, plot_latent_svm_as_crf.py | SvmAsCrf | data loading, timing, printing, drawing; k-means initialisation a parameter |
| examples/multi_label.py, benchmarks/multi_label_tree.py: chow_liu_tree, full; benchmarks/random_tree_crf.py: make_random_trees | ChowLiu | mutual_info_score, minimum_spanning_tree (parameters); loading, training |
| models/crf.py, base.py and utils/inference.py on tuples of marginals, as the learners call them (relaxed=True) | RelaxedCRF | warm starts, the comparison of labels with marginals (parameter) |
| datasets/dataset_loaders.py, utils/plotting.py, examples/plot_letters.py, plot_directional_grid.py, plot_latent_node.py, image_segmentation.py | Model/Scripts.v | the arrays computed; not the reading of pickles and the drawing |
| examples/multiclass_comparision_svm_struct.py 46-86 | Model/SvmStruct.v | MultiSVM, the external programs being a parameter; not the timing and plotting |
| other examples/, benchmarks/, doc/ | | only where cited above |

Throughout: doubles are exact rationals, so no statement is made about rounding, overflow or nan (a division by zero that would
give inf/nan is `Err NonFinite`); object identity and aliasing are modelled only where the code depends on them
(one-slack's constraint list, the learner mutated by SaveLogger); concurrency is modelled for joblib's Parallel as an arbitrary
completion order of the tasks.

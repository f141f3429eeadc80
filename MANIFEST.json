{
 "claims": [
  {
   "property": "C01",
   "status": "proved",
   "theorems": [
    "C01_graphcrf_score_linear",
    "C01_graphcrf_relaxed_score_linear"
   ],
   "note": "GraphCRF, discrete and relaxed labellings."
  },
  {
   "property": "C02",
   "status": "proved",
   "theorems": [
    "C02_graphcrf_size_checks",
    "C02_edgefeature_size_checks",
    "C02_multilabel_size_checks",
    "C02_multilabel_joint_feature_unchecked",
    "C02_typed_size",
    "C02_typed_size_checks"
   ],
   "note": "GraphCRF, EdgeFeatureGraphCRF, MultiLabelClf, MultiClassClf and NodeTypeEdgeFeatureGraphCRF (sizes also in C01_*, C14_*, C16_*, C18_*, C43_*)."
  },
  {
   "property": "C03",
   "status": "proved",
   "theorems": [
    "C03_augmented_potentials",
    "C03_loss_augmented_inference_exact",
    "C03_chaincrf_loss_augmented_inference_exact",
    "C03_edgefeature_loss_augmented_inference_exact"
   ],
   "note": "Potentials and oracle for any solver that is exact on the graph; ChainCRF with its own max-product solver without assumption; EdgeFeatureGraphCRF too."
  },
  {
   "property": "C04",
   "status": "proved",
   "theorems": [
    "C04_max_product_exact_on_chains",
    "C04_chaincrf_inference_exact",
    "C04_make_chain_edges",
    "C04_parallel_edges_taken_for_chain_refuted",
    "C04_no_edges"
   ],
   "note": "Includes the inputs on which the chain test goes wrong: parallel edges (non-optimal answer) and no edges (out-of-bounds read or ValueError)."
  },
  {
   "property": "C05",
   "status": "proved",
   "theorems": [
    "C05_is_forest_decides_acyclicity",
    "C05_no_edges_rejected"
   ],
   "note": "Edge lists of any length, with multi-edges and self loops; the empty list raises."
  },
  {
   "property": "C06",
   "status": "proved",
   "theorems": [
    "C06_tree_max_product_max_marginals",
    "C06_tree_max_product_unique_map",
    "C06_tree_max_product_with_ties_refuted"
   ],
   "note": "Per-node labels are max-marginal labels; a unique maximiser is returned; with ties the answer can be non-optimal (refuted theorem)."
  },
  {
   "property": "C07",
   "status": "proved",
   "theorems": [
    "C07_loopy_max_product",
    "C07_max_product_always_labels"
   ],
   "note": "For every max_iter, damping and tolerance; the decoding table equals the sum of the current messages."
  },
  {
   "property": "C08",
   "status": "proved",
   "theorems": [
    "C08_lp_is_the_local_polytope",
    "C08_inference_lp",
    "C08_integral_points",
    "C08_solve_lp"
   ],
   "note": "cvxopt is a parameter: the theorems describe the problem it is given and what is returned when its answer is optimal for that problem. Numeric tolerance of the solver is not modelled."
  },
  {
   "property": "C09",
   "status": "proved",
   "theorems": [
    "C09_unaries_argmax",
    "C09_unaries_exact_for_constant_pairwise",
    "C09_unaries_gap",
    "C09_bad_shape_rejected"
   ],
   "note": "Also bounds the loss of ignoring the pairwise terms."
  },
  {
   "property": "C10",
   "status": "proved",
   "theorems": [
    "C10_compute_energy",
    "C10_compute_energy_rejects"
   ],
   "note": "Both forms of the pairwise argument and the shape errors."
  },
  {
   "property": "C11",
   "status": "proved",
   "theorems": [
    "C11_expand_sym_symmetric",
    "C11_expand_sym_rejects",
    "C11_compress_expand_roundtrip",
    "C11_expand_compress_roundtrip",
    "C11_compress_is_adjoint_of_expand",
    "C11_default_compress_doubles",
    "C11_default_roundtrip_refuted"
   ],
   "note": "The default make_symmetric=True is the adjoint of expand_sym, not its inverse (refuted theorem)."
  },
  {
   "property": "C12",
   "status": "proved",
   "theorems": [
    "C12_grid_edges_4",
    "C12_grid_edges_8",
    "C12_other_neighborhoods_rejected",
    "C12_lists_concatenate",
    "C12_gridcrf_score",
    "C12_gridcrf_wrong_features_rejected"
   ],
   "note": "Edges of the 4- and 8-neighbourhood characterised for all grid sizes; GridCRF scores; the feature check of GridCRF is vacuous but wrong sizes still raise."
  },
  {
   "property": "C13",
   "status": "proved",
   "theorems": [
    "C13_edge_features_mark_direction",
    "C13_directional_4_score",
    "C13_directional_8_wrong_length",
    "C13_directional_8_inference_always_fails"
   ],
   "note": "neighborhood=4 satisfies the claim; with neighborhood=8 joint_feature has the wrong length and every inference raises ValueError."
  },
  {
   "property": "C14",
   "status": "proved",
   "theorems": [
    "C14_joint_feature_score",
    "C14_score_linear",
    "C14_relaxed_score_linear",
    "C14_learned_weights_respect_symmetry",
    "C14_arbitrary_weights_refuted",
    "C14_bad_declarations_rejected",
    "C14_no_declarations"
   ],
   "note": "Holds for every weight vector that is a combination of joint features (all learners produce such); refuted for arbitrary weights."
  },
  {
   "property": "C15",
   "status": "proved",
   "theorems": [
    "C15_joint_feature",
    "C15_inference_exact",
    "C15_loss_augmented_inference_exact",
    "C15_loss_augmented_tie",
    "C15_batch_tie_overestimates",
    "C15_batch_agrees",
    "C15_batch_joint_feature_is_sum"
   ],
   "note": "The tie is stated as its own theorem: 0 is returned, find_constraint raises ValueError, the batch path over-estimates the slack by 1/2."
  },
  {
   "property": "C16",
   "status": "proved",
   "theorems": [
    "C16_joint_feature",
    "C16_joint_feature_refused",
    "C16_inference_exact",
    "C16_loss_augmented_inference_exact",
    "C16_implements_task",
    "C16_batch_inference_agrees",
    "C16_batch_loss_augmented_inference_agrees",
    "C16_batch_joint_feature_is_sum",
    "C16_batch_loss_agrees",
    "C16_batch_unknown_class"
   ],
   "note": "Single-sample and batch paths; includes the out-of-range label on the batch path."
  },
  {
   "property": "C17",
   "status": "proved",
   "theorems": [
    "C17_constraint_is_rescaled",
    "C17_objective_rescales_C",
    "C17_batch_joint_feature_is_sum",
    "C17_y_true_required"
   ],
   "note": "rescale_C as a rescaled task."
  },
  {
   "property": "C18",
   "status": "proved",
   "theorems": [
    "C18_score_linear",
    "C18_relaxed_score_linear",
    "C18_inference_exact",
    "C18_loss_augmented_inference_exact",
    "C18_single_label_fails"
   ],
   "note": "Discrete and relaxed labellings, exact inference and loss augmentation for any exact solver; with one label the class weights are too short and training fails."
  },
  {
   "property": "C19",
   "status": "proved",
   "theorems": [
    "C19_loss_laws",
    "C19_loss_is_hamming",
    "C19_loss_rejects_unknown_class",
    "C19_continuous_loss_one_hot",
    "C19_continuous_loss_bounds",
    "C19_class_weight"
   ],
   "note": "Discrete and relaxed predictions; the default class weights (C19_class_weight)."
  },
  {
   "property": "C20",
   "status": "proved",
   "theorems": [
    "C20_score_between_0_and_1",
    "C20_missing_predictions_refuted"
   ],
   "note": "Predictions are a parameter. With X shorter than Y the missing predictions count as correct (refuted theorem)."
  },
  {
   "property": "C21",
   "status": "proved",
   "theorems": [
    "C21_slack_nonnegative",
    "C21_slack_is_hinge",
    "C21_slack_inexact",
    "C21_hinge_bounds_prediction_loss",
    "C21_objective_bounds_training_loss",
    "C21_graphcrf_implements_task",
    "C21_chaincrf_implements_task"
   ],
   "note": "For every model that implements a task; GraphCRF, ChainCRF, BinaryClf and MultiClassClf shown to do so."
  },
  {
   "property": "C22",
   "status": "proved",
   "theorems": [
    "C22_variants_agree",
    "C22_at_least_regulariser",
    "C22_value",
    "C22_convex",
    "C22_no_samples"
   ],
   "note": "joblib.Parallel is modelled as a sequential map, so n_jobs is not part of the model; one statement for both variants."
  },
  {
   "property": "C23",
   "status": "proved",
   "theorems": [
    "C23_dual_point",
    "C23_dual_optimum",
    "C23_dual_optimum_regularised",
    "C23_negativity_optimum_refuted",
    "C23_fit_lower_bound",
    "C23_fit_near_optimal"
   ],
   "note": "QP solver is a parameter (feasible, or optimal where said). Whole fit modelled incl. batches, switch_to, pruning, both QP attempts; near-optimality proved for the stop without new constraint. With negativity constraints the optimum is refuted."
  },
  {
   "property": "C24",
   "status": "proved",
   "theorems": [
    "C24_dual_point",
    "C24_dual_optimum",
    "C24_dual_optimum_regularised",
    "C24_fit_lower_bound",
    "C24_fit_near_optimal",
    "C24_without_initial_constraint_refuted",
    "C24_round_record",
    "C24_multiclass_batch"
   ],
   "note": "QP solver a parameter. Whole fit modelled incl. batch methods, cache, switch_to, pruning, both QP attempts. Near-optimality needs the initial constraint to be still present (refuted without). MultiClassClf batch instance proved."
  },
  {
   "property": "C25",
   "status": "proved",
   "theorems": [
    "C25_round",
    "C25_no_window",
    "C25_strongest_stays",
    "C25_misaligned_fails",
    "C25_fit_aligned",
    "C25_initial_constraint_stays_refuted"
   ],
   "note": "Exact characterisation of each pruning round, invariants over the whole fit from any start; the initial constraint can be pruned (refuted)."
  },
  {
   "property": "C26",
   "status": "proved",
   "theorems": [
    "C26_round",
    "C26_removed_only_when_inactive",
    "C26_round_all_samples",
    "C26_two_new_constraints_fail",
    "C26_consecutive_refuted"
   ],
   "note": "Counters equal the number of low rounds; removal characterised; non-consecutive reading refuted."
  },
  {
   "property": "C27",
   "status": "proved",
   "theorems": [
    "C27_cache_invariant",
    "C27_update",
    "C27_cached_constraint",
    "C27_bound_refuted",
    "C27_relaxed_results_fail",
    "C27_rescaled_weights_fail"
   ],
   "note": "Invariant over every fit and warm start; bound inference_cache refuted (it is inference_cache+1); relaxed results and rescale_C with a cache fail."
  },
  {
   "property": "C28",
   "status": "proved",
   "theorems": [
    "C28_invariant",
    "C28_weak_duality",
    "C28_fit",
    "C28_fit_succeeds",
    "C28_refit_bound_refuted",
    "C28_multiclass",
    "C28_default_batch_methods"
   ],
   "note": "Invariant over every execution trace; weak duality; every entry of objective_curve_ of a whole fit (both modes) is a lower bound; a second fit of the same learner breaks it (refuted)."
  },
  {
   "property": "C29",
   "status": "proved",
   "theorems": [
    "C29_block_update",
    "C29_block_update_best",
    "C29_batch_update"
   ],
   "note": "Block update for every state; batch update; optimality of the step size up to eps/2; whole curves ascending (C28_fit)."
  },
  {
   "property": "C30",
   "status": "proved",
   "theorems": [
    "C30_frank_wolfe_mean",
    "C30_subgradient_mean",
    "C30_subgradient_fit"
   ],
   "note": "Frank-Wolfe and SubgradientSSVM; whole fits, first and later ones."
  },
  {
   "property": "C31",
   "status": "proved",
   "theorems": [
    "C31_gap_report",
    "C31_certificate"
   ],
   "note": "Identity with objective_primal, non-negative gap, and the tol certificate of the returned weights."
  },
  {
   "property": "C32",
   "status": "proved",
   "theorems": [
    "C32_online_step",
    "C32_mini_batch_step",
    "C32_parallel_step",
    "C32_parallel_objective_refuted",
    "C32_online_regret",
    "C32_full_batch_regret"
   ],
   "note": "One step in each mode; regret bound over whole online fits and full-batch fits with the default schedule; parallel mode optimises a different objective (refuted)."
  },
  {
   "property": "C33",
   "status": "proved",
   "theorems": [
    "C33_mistake_bound",
    "C33_rate_bound",
    "C33_converges",
    "C33_binaryclf",
    "C33_multiclassclf",
    "C33_graphcrf",
    "C33_chaincrf"
   ],
   "note": "Every data set, order, epoch count, averaging setting, online and batch mode; constant rate, plus a bound for every integer decay exponent. Convergence within a computed number of epochs is derived. Hypotheses on the model object are proved for BinaryClf, MultiClassClf, GraphCRF with an exact solver and ChainCRF."
  },
  {
   "property": "C34",
   "status": "proved",
   "theorems": [
    "C34_fit",
    "C34_early_stop",
    "C34_average_never_started",
    "C34_no_max_loss",
    "C34_average_too_low",
    "C34_decay_t0_zero",
    "C34_rescaled_never_learns"
   ],
   "note": "C34_fit describes every call of fit (any inference function, exceptions and KeyboardInterrupt included). Findings: averaging that never starts leaves zero weights; average < -1 raises TypeError instead of NotImplementedError; a zero total max_loss gives non-finite curve entries and no early stop; rescale_C never learns; decay_t0=0 fails."
  },
  {
   "property": "C35",
   "status": "proved",
   "theorems": [
    "C35_latent_explains",
    "C35_latent_succeeds",
    "C35_latent_best_or_fallback",
    "C35_latent_best",
    "C35_latent_best_refuted",
    "C35_label_out_of_range",
    "C35_label_without_states"
   ],
   "note": "Any solver output, including labellings that contradict y. Also: success, optimality with an exact solver when the fallback is not used or the potentials are small, a refutation of optimality in general, and what happens for a label out of range or without states."
  },
  {
   "property": "C36",
   "status": "proved",
   "theorems": [
    "C36_layout",
    "C36_setup",
    "C36_setup_error",
    "C36_kmeans_explains",
    "C36_kmeans_succeeds",
    "C36_init_succeeds_iff",
    "C36_neighbor_features"
   ],
   "note": "All layouts (same number per label or a list); any clustering function with answers in range. neighbour features given explicitly for one edge set. C36_init_succeeds_iff: with k-means, which needs as many rows as clusters, when init_latent works."
  },
  {
   "property": "C37",
   "status": "proved",
   "theorems": [
    "C37_augmented_score",
    "C37_latent_model",
    "C37_continuous_loss",
    "C37_continuous_loss_discrete",
    "C37_loss_of_bad_state"
   ],
   "note": "Score identity for every labelling, loss formula, relaxed loss; LatentGraphCRF as an instance of the interface the learners use."
  },
  {
   "property": "C38",
   "status": "proved",
   "theorems": [
    "C38_right_iff",
    "C38_same_states_charged",
    "C38_perfect_score",
    "C38_objective",
    "C38_objective_refuted"
   ],
   "note": "Equivalence for loss(y, h); with k >= 2 states per label perfect predictions are charged for every node not labelled 0; objective right iff-hypothesis and a refutation."
  },
  {
   "property": "C39",
   "status": "proved",
   "theorems": [
    "C39_latent_extends",
    "C39_latent_total",
    "C39_latent_best",
    "C39_latent_label_refuted",
    "C39_edge_latent_extends",
    "C39_edge_latent_total",
    "C39_kmeans_completes",
    "C39_kmeans_succeeds_iff",
    "C39_kmeans_features",
    "C39_kmeans_features_no_hidden",
    "C39_kmeans_no_hidden_refuted"
   ],
   "note": "Statement revised: label_from_latent(latent(x,y,w)) = y does not hold in general (refuted with an exact solver); proved with the exact condition, and for small potentials. Initial completions for any clusterer with answers in range; n_hidden = 0 refuted."
  },
  {
   "property": "C40",
   "status": "proved",
   "theorems": [
    "C40_trace",
    "C40_labels_differ",
    "C40_descent",
    "C40_descent_total",
    "C40_fixed_point",
    "C40_constraints_adjusted",
    "C40_nslack_guarantee",
    "C40_nslack_descent",
    "C40_oneslack_guarantee",
    "C40_oneslack_descent",
    "C40_latent_graph",
    "C40_perceptron_base_fails",
    "C40_frankwolfe_base",
    "C40_completion_error",
    "C40_predict",
    "C40_score",
    "C40_score_nothing"
   ],
   "note": "For any base learner meeting the descent condition; NSlackSSVM and OneSlackSSVM proved to meet it with an exact QP solver (fits that end because no constraint was added; for one-slack, ground-truth constraint not pruned). End-to-end for LatentGraphCRF with NSlackSSVM. switch_to is None."
  },
  {
   "property": "C41",
   "status": "proved",
   "theorems": [
    "C41_model",
    "C41_w",
    "C41_w_unfitted",
    "C41_n_jobs",
    "C41_verbose",
    "C41_C_refuted"
   ],
   "note": "Read-back proved for model, w, n_jobs, verbose; refuted for C for every value."
  },
  {
   "property": "C42",
   "status": "proved",
   "theorems": [
    "C42_constructor",
    "C42_flatten",
    "C42_flatten_total",
    "C42_round_trip",
    "C42_round_trip_back",
    "C42_unflatten_length_mismatch",
    "C42_unflatten_without_features_fails",
    "C42_no_collision",
    "C42_check_x",
    "C42_check_xy",
    "C42_flattened_is_valid",
    "C42_initialize_single",
    "C42_initialize_list_unchecked"
   ],
   "note": "None arrays make unflattenY fail (proved); initialize on lists checks nothing (proved)."
  },
  {
   "property": "C43",
   "status": "proved",
   "theorems": [
    "C43_unary_potentials",
    "C43_pairwise_potentials",
    "C43_joint_feature",
    "C43_joint_feature_relaxed",
    "C43_joint_feature_relaxed_arrays"
   ],
   "note": "Labels, lists of marginals and single arrays of marginals."
  },
  {
   "property": "C44",
   "status": "proved",
   "theorems": [
    "C44_entries",
    "C44_adds_the_loss",
    "C44_wrong_type_reads_out_of_bounds",
    "C44_continuous_loss",
    "C44_continuous_loss_one_row",
    "C44_continuous_loss_no_rows"
   ],
   "note": "Wrong-type labels read out of bounds in the compiled loop (modelled as OutOfBounds)."
  },
  {
   "property": "C45",
   "status": "proved",
   "theorems": [
    "C45_not_due",
    "C45_due",
    "C45_every_zero",
    "C45_loadable",
    "C45_dump_failure",
    "C45_failure_harmless_refuted",
    "C45_open_failure",
    "C45_crash_states",
    "C45_atomic_refuted",
    "C45_names",
    "C45_final_typeerror",
    "C45_template_not_written",
    "C45_run_numbered",
    "C45_run_single"
   ],
   "note": "pickle and open are parameters; format strings with conversions other than d, i, u, s, %% are modelled as OtherException. Atomicity and harmless failure are refuted."
  },
  {
   "property": "C46",
   "status": "proved",
   "theorems": [
    "C46_exhaustive_inference_exact",
    "C46_exhaustive_loss_augmented_exact"
   ],
   "note": "With the lexicographically first maximiser on ties."
  },
  {
   "property": "C47",
   "status": "proved",
   "theorems": [
    "C47_options_override",
    "C47_unknown_method",
    "C47_energy_returned",
    "C47_ogm_energy",
    "C47_return_energy_ignored",
    "C47_only_labels",
    "C47_constraints_ignored",
    "C47_constraints_rejected",
    "C47_get_installed"
   ],
   "note": "Solvers are parameters; keyword arguments are dictionaries. Includes the options that are silently ignored."
  },
  {
   "property": "C48",
   "status": "proved",
   "theorems": [
    "C48_multi_type_decoding",
    "C48_ad3_single_type",
    "C48_ad3plus_single_type"
   ],
   "note": "The AD3 answer is a parameter; decoding, statuses and exceptions are covered for one and several node types."
  },
  {
   "property": "C49",
   "status": "proved",
   "theorems": [
    "C49_nslack_fit_succeeds",
    "C49_nslack_no_constraint",
    "C49_nslack_max_iter_zero",
    "C49_oneslack_fit_succeeds",
    "C49_oneslack_no_constraint",
    "C49_oneslack_max_iter_zero"
   ],
   "note": "Both learners: success conditions, UnboundLocalError cases, max_iter=0. QP solver assumed to answer feasible points for every problem posed (solvers exist: examples)."
  },
  {
   "property": "C50",
   "status": "proved",
   "theorems": [
    "C50_interruption_points",
    "C50_points_follow_the_iteration",
    "C50_interrupted_outside",
    "C50_resumes",
    "C50_finished_fit_resumable",
    "C50_interrupted_inside",
    "C50_interrupted_inside_assertion",
    "C50_never_fitted"
   ],
   "note": "All points of an iteration at which an exception can arrive between statements changing constraints_/alphas; inside a single list operation is not modelled."
  },
  {
   "property": "C51",
   "status": "proved",
   "theorems": [
    "C51_predict_in_order",
    "C51_n_jobs_irrelevant",
    "C51_failure",
    "C51_n_jobs_zero",
    "C51_multiclass",
    "C51_binary",
    "C51_inherited_batch",
    "C51_constraints",
    "C51_surplus_dropped",
    "C51_inherited_batch_constraints",
    "C51_constraints_n_jobs_refuted",
    "C51_score"
   ],
   "note": "joblib.Parallel is modelled by an arbitrary completion order; per-sample inference, constraints and losses are parameters of the model, with MultiClassClf, BinaryClf and every model inheriting the default batch methods as instances. Independence of n_jobs fails for models without the keyword constraints when constraints are given (proved)."
  },
  {
   "property": "C52",
   "status": "proved",
   "theorems": [
    "C52_qpbo_quantisation_error",
    "C52_qpbo_overflow_refuted"
   ],
   "note": "Near-optimality for every integer minimiser, and unbounded loss outside the int32 range for every overflow behaviour."
  },
  {
   "property": "C53",
   "status": "proved",
   "theorems": [
    "C53_counts_distinct_labels",
    "C53_fresh",
    "C53_accepts",
    "C53_sizes",
    "C53_class_sizes",
    "C53_labels_valid_iff",
    "C53_gap_accepted",
    "C53_missing_class_rejected",
    "C53_first_sample_only",
    "C53_empty",
    "C53_again",
    "C53_noop_refuted",
    "C53_uniform_flag_harmless",
    "C53_declared_sizes_not_uniform",
    "C53_other_data",
    "C53_failure_sticks",
    "C53_class_weight_length",
    "C53_multilabel_constructor",
    "C53_edge_features",
    "C53_edge_features_mismatch",
    "C53_binary",
    "C53_latent_states"
   ],
   "note": "All constructors/initialize methods share one model with the size formula of each class (proved equal to the sizes used elsewhere). Attribute changes made before an exception are part of the model."
  },
  {
   "property": "C54",
   "status": "proved",
   "theorems": [
    "C54_max_iter_zero",
    "C54_gap_never_checked",
    "C54_batch_C_zero",
    "C54_binary_never",
    "C54_binary_batch_error",
    "C54_rescaled_multiclass_never"
   ],
   "note": "Each rejection proved for all inputs; binary and rescaled multi-class never return normally."
  },
  {
   "property": "C55",
   "status": "proved",
   "theorems": [
    "C55_mini_batch_never_stops_early",
    "C55_online_early_stop",
    "C55_early_stop_weights_refuted",
    "C55_online_succeeds",
    "C55_parallel_with_batch_size",
    "C55_no_jobs",
    "C55_bad_batch_size",
    "C55_C_zero",
    "C55_decay_t0_zero",
    "C55_rescaled_mini_batch_never"
   ],
   "note": "Whole fits; each failure for all inputs."
  },
  {
   "property": "C56",
   "status": "proved",
   "theorems": [
    "C56_majorant",
    "C56_online_step",
    "C56_step_of_completed_sample",
    "C56_epoch",
    "C56_parallel_batch",
    "C56_early_stop",
    "C56_final_objective",
    "C56_jobs_fail"
   ],
   "note": "Stated for every latent model whose oracles are exact at the current weights (instance shown), the structural parts for arbitrary oracles."
  },
  {
   "property": "C57",
   "status": "proved",
   "theorems": [
    "C57_potentials",
    "C57_joint_feature_linear",
    "C57_joint_feature_relaxed",
    "C57_edge_joint_feature_linear",
    "C57_edge_joint_feature_relaxed",
    "C57_losses",
    "C57_augmented_score",
    "C57_latent_model",
    "C57_edge_latent_model",
    "C57_edge_features_needed",
    "C57_edges_needed"
   ],
   "note": "Both models, both settings of latent_node_features; relaxed labels included. Optimality of the three inference calls is for an exact solver and potentials satisfying node_small / edge_small (instances shown)."
  },
  {
   "property": "C58",
   "status": "proved",
   "theorems": [
    "C58_inference_exact",
    "C58_loss_augmented_inference_exact",
    "C58_learner_instance",
    "C58_exception_flag_ignored",
    "C58_fractional_answers",
    "C58_constraints",
    "C58_no_library"
   ],
   "note": "The AD3 library is a parameter; exactness on the instance is a hypothesis, met by exhaustive search (example)."
  },
  {
   "property": "C59",
   "status": "proved",
   "theorems": [
    "C59_curve",
    "C59_off",
    "C59_refit_refuted"
   ],
   "note": "Statement includes the refuted part (refit keeps the old curve)."
  },
  {
   "property": "C60",
   "status": "proved",
   "theorems": [
    "C60_forest_polytope",
    "C60_mixture_value",
    "C60_inference_lp_exact",
    "C60_ad3_exact",
    "C60_cycle_refuted",
    "C60_ties_refuted"
   ],
   "note": "The solver and the AD3 library are parameters; that they return an optimum is a hypothesis (met by examples). Cycles and ties: refutations."
  },
  {
   "property": "C61",
   "status": "proved",
   "theorems": [
    "C61_problem",
    "C61_weak_duality",
    "C61_fit",
    "C61_no_bounded_support_vector",
    "C61_intercept_refuted",
    "C61_one_class",
    "C61_rejects",
    "C61_predict"
   ],
   "note": "Includes a refutation: the intercept averages over bounded support vectors too."
  },
  {
   "property": "C62",
   "status": "proved",
   "theorems": [
    "C62_value",
    "C62_rescaled_objective",
    "C62_empty",
    "C62_better_run",
    "C62_not_worse_than_starts",
    "C62_minimises",
    "C62_same_C_refuted"
   ],
   "note": "Proved for every model object; fmin is a parameter. C62_same_C_refuted shows the objective is not that of the other learners for the same C."
  },
  {
   "property": "C63",
   "status": "proved",
   "theorems": [
    "C63_grid_score",
    "C63_grid_implements",
    "C63_grid_exact",
    "C63_grid_latent_explains",
    "C63_grid_latent_best_or_fallback",
    "C63_grid_latent_exact",
    "C63_directional_score",
    "C63_directional_implements",
    "C63_directional_exact",
    "C63_directional_latent_explains",
    "C63_directional_latent_best_or_fallback",
    "C63_directional_latent_exact",
    "C63_directional_8_refuted",
    "C63_init_explains",
    "C63_init_succeeds_iff",
    "C63_init_lists_refuted",
    "C63_directional_neighbours",
    "C63_label_loss"
   ],
   "note": "The solver and k-means are parameters with stated contracts. C63_directional_8_refuted and C63_init_lists_refuted show where the code fails."
  },
  {
   "property": "C64",
   "status": "proved",
   "theorems": [
    "C64_one_slack_rounds",
    "C64_one_slack_converges",
    "C64_n_slack_finite",
    "C64_n_slack_monotone",
    "C64_n_slack_converges",
    "C64_n_slack_tolerance"
   ],
   "note": "One-slack bounds assume inactive_window=0 and no negativity constraint; the existence of a result (no exception) is C49."
  },
  {
   "property": "C65",
   "status": "proved",
   "theorems": [
    "C65_gridcrf_implements_task",
    "C65_directional_implements_task",
    "C65_edge_feature_implements_task",
    "C65_multilabel_implements_task",
    "C65_n_slack_labellings",
    "C65_chain_n_slack",
    "C65_grid_n_slack",
    "C65_directional_n_slack",
    "C65_multilabel_n_slack",
    "C65_chain_one_slack"
   ],
   "note": "Training theorems say what holds if fit returns; when it returns is C49. EdgeFeatureGraphCRF with declared symmetric features is exact only for weights respecting them; the training theorem for it is C66."
  },
  {
   "property": "C66",
   "status": "proved",
   "theorems": [
    "C66_n_slack_stays",
    "C66_one_slack_stays",
    "C66_n_slack_labellings",
    "C66_one_slack",
    "C66_edge_feature_subspace",
    "C66_edge_feature_n_slack",
    "C66_edge_feature_one_slack"
   ],
   "note": "Subspace invariance for every solver; near-optimality with an exact one. one-slack with a cache and a rescaling model is excluded from the invariance proof; only MultiClassClf has that option."
  },
  {
   "property": "C67",
   "status": "proved",
   "theorems": [
    "C67_blocks",
    "C67_checker",
    "C67_big_checker",
    "C67_number_of_samples",
    "C67_blocks_multinomial",
    "C67_checker_multinomial",
    "C67_multinomial_too_small",
    "C67_big_checker_extended",
    "C67_simple_2x2",
    "C67_easy",
    "C67_far_boxes_disjoint",
    "C67_square_with_hole",
    "C67_easy_explicit",
    "C67_xs",
    "C67_too_small",
    "C67_bars",
    "C67_bars_refuted",
    "C67_crosses",
    "C67_crosses_explicit",
    "C67_far_crosses_disjoint",
    "C67_crosses_end",
    "C67_crosses_end_refuted",
    "C67_crosses_8_9_refuted",
    "C67_crosses_latent",
    "C67_four_labels_refuted",
    "C67_crosses_latent_usable_refuted",
    "C67_crosses_latent_accepted"
   ],
   "note": "np.random.randint is a stream of naturals reduced modulo the range, np.random.normal an arbitrary function. generate_crosses and generate_crosses_explicit are loops with fuel: theorems say Running for every fuel, or Done for fair streams."
  },
  {
   "property": "C68",
   "status": "proved",
   "theorems": [
    "C68_batch_rate",
    "C68_batch_stops",
    "C68_batch_certificate_refuted",
    "C68_plain_converges",
    "C68_average_converges",
    "C68_converges"
   ],
   "note": "Exact arithmetic; inference is exact. Not covered: sample_method 'rnd' (with replacement a sample may never be drawn) and the fixed step rule in block-coordinate mode."
  },
  {
   "property": "C69",
   "status": "proved",
   "theorems": [
    "C69_nslack",
    "C69_oneslack",
    "C69_frankwolfe",
    "C69_subgradient",
    "C69_latent_subgradient",
    "C69_plot",
    "C69_plot_iterations",
    "C69_plot_ordered",
    "C69_model_nslack",
    "C69_model_oneslack",
    "C69_model_frankwolfe",
    "C69_model_subgradient",
    "C69_model_latent_subgradient",
    "C69_logger_nslack",
    "C69_logger_oneslack",
    "C69_logger_frankwolfe",
    "C69_logger_subgradient",
    "C69_readings",
    "C69_stamps_nslack",
    "C69_stamps_oneslack",
    "C69_stamps_frankwolfe",
    "C69_stamps_subgradient",
    "C69_stamps_latent_subgradient",
    "C69_warm_stamps_refuted",
    "C69_losses",
    "C69_loss_axis",
    "C69_loss_axis_refuted",
    "C69_frankwolfe_losses_refuted",
    "C69_refit_losses_refuted",
    "C69_interrupted_subgradient",
    "C69_interrupted_nslack",
    "C69_interrupted_oneslack",
    "C69_interrupted_frankwolfe",
    "C69_interrupt_nslack_refuted",
    "C69_interrupt_oneslack_refuted",
    "C69_interrupt_frankwolfe_refuted",
    "C69_first_epoch_refuted",
    "C69_all_learners_refuted",
    "C69_late_refuted"
   ],
   "note": "The numbers are inputs of the bookkeeping model; C69_model_* say that the models of the learners provide them. matplotlib is the length check of plot. An interrupt arrives between two actions of the try block."
  },
  {
   "property": "C70",
   "status": "proved",
   "theorems": [
    "C70_converges",
    "C70_rate",
    "C70_weights_agree",
    "C70_parallel_converges",
    "C70_uneven_converges",
    "C70_default_stop_refuted",
    "C70_parallel_refuted",
    "C70_uneven_refuted"
   ],
   "note": "Last iterate, exact rationals; averaged weights are covered by C72. Other decay exponents and momentum are not covered by the convergence theorems."
  },
  {
   "property": "C71",
   "status": "proved",
   "theorems": [
    "C71_one_slack_near",
    "C71_n_slack_near",
    "C71_frank_wolfe_near",
    "C71_learners_agree",
    "C71_predictions_agree",
    "C71_subgradient_settles",
    "C71_frank_wolfe_settles"
   ],
   "note": "Composition of C64, C68 and C70. The QP solver is assumed exact, and the two cutting-plane fits are assumed to return; the prediction theorems ask for exact inference on the input."
  },
  {
   "property": "C72",
   "status": "proved",
   "theorems": [
    "C72_converges",
    "C72_averages_agree",
    "C72_parallel_converges",
    "C72_uneven_converges"
   ],
   "note": "Exact rationals. Together with C70 this covers every averaging setting; other decay exponents and momentum are not covered."
  },
  {
   "property": "C73",
   "status": "proved",
   "theorems": [
    "C73_constructor",
    "C73_size",
    "C73_accepted",
    "C73_missing_node_refuted",
    "C73_joint_feature",
    "C73_joint_feature_relaxed",
    "C73_bad_label",
    "C73_potentials",
    "C73_loss_augment",
    "C73_no_edge_features_refuted",
    "C73_dispatch",
    "C73_exception_refuted",
    "C73_inference",
    "C73_loss_augmented_inference",
    "C73_alike"
   ],
   "note": "That the AD3 library treats a list with one graph like the graph is a hypothesis (one_graph_lib); the library itself is not modelled."
  },
  {
   "property": "C74",
   "status": "proved",
   "theorems": [
    "C74_find_constraint",
    "C74_objective",
    "C74_perceptron",
    "C74_subgradient",
    "C74_frank_wolfe",
    "C74_n_slack",
    "C74_one_slack",
    "C74_predictions",
    "C74_single_type_one_slack"
   ],
   "note": "Batch methods are the defaults of StructuredModel. The shuffling of SubgradientSSVM has to treat both lists alike."
  },
  {
   "property": "C75",
   "status": "proved",
   "theorems": [
    "C75_constant_feature",
    "C75_constant_feature_relaxed",
    "C75_constant_feature_predicts",
    "C75_constant_feature_alike",
    "C75_constant_feature_one_slack",
    "C75_undirected",
    "C75_undirected_scores",
    "C75_grid",
    "C75_grid_alike",
    "C75_directional",
    "C75_directional_alike",
    "C75_chain_alike",
    "C75_solvers"
   ],
   "note": "ad3+ hands a shared table to the library unrepeated and is excluded. Training the undirected model is not training the directed one (see C75_undirected_computed); only potentials, predictions and scores agree."
  },
  {
   "property": "C76",
   "status": "proved",
   "theorems": [
    "C76_one_hot",
    "C76_one_hot_refuted",
    "C76_one_hot_errors",
    "C76_patches",
    "C76_patch_offsets",
    "C76_prepare",
    "C76_prepare_errors",
    "C76_edge_score",
    "C76_prepare_data"
   ],
   "note": "Exact rationals instead of floats: x/255 is exact for 0 and 255."
  },
  {
   "property": "C77",
   "status": "proved",
   "theorems": [
    "C77_present",
    "C77_present_even",
    "C77_present_odd_refuted",
    "C77_present_border_refuted",
    "C77_change",
    "C77_cells",
    "C77_change_keeps",
    "C77_change_errors",
    "C77_change_refuted",
    "C77_augment",
    "C77_augment_refuted",
    "C77_shorten",
    "C77_shorten_inside",
    "C77_shorten_border_refuted",
    "C77_shorten_errors"
   ],
   "note": "Random draws are arbitrary functions, one sequence per copy. Prints are left out; arrays changed in place are modelled by their final value."
  },
  {
   "property": "C78",
   "status": "proved",
   "theorems": [
    "C78_swap_involution",
    "C78_best_labelling",
    "C78_losses",
    "C78_swap_twice",
    "C78_swap_permutation",
    "C78_swap_permutation_error",
    "C78_swap_without_features_fails",
    "C78_swap_all",
    "C78_bad_entry",
    "C78_constraints_refuted",
    "C78_empty_constraint_lists",
    "C78_cycle_refuted"
   ],
   "note": "Entries of the permutation are natural numbers. Non-termination is stated as: no number of iterations suffices. The main script unpacks the three results into two names, so the debugging mode raises ValueError at once (lines 516-519, not modelled)."
  },
  {
   "property": "C79",
   "status": "proved",
   "theorems": [
    "C79_picture_features",
    "C79_picture_features_errors",
    "C79_counts_total",
    "C79_distortion_keeps",
    "C79_easy_overwrites",
    "C79_easy_error",
    "C79_convert",
    "C79_convert_error",
    "C79_convert_score",
    "C79_convert_all",
    "C79_swapped_model",
    "C79_swapped",
    "C79_constraints",
    "C79_constraints_atmostone",
    "C79_constraints_all",
    "C79_constraints_errors",
    "C79_true_labels",
    "C79_build_constraints",
    "C79_tail_unconstrained_refuted"
   ],
   "note": "The meaning of the operators (XOR, XOROUT, ANDOUT, ATMOSTONE, ...) is taken from the documentation of AD3, whose solver is not modelled. Pixel labels are natural numbers, picture labels integers. buildConstraintsFromSingleTyped is modelled with its one node array taken from the untyped instance."
  },
  {
   "property": "C80",
   "status": "proved",
   "theorems": [
    "C80_snakes",
    "C80_present",
    "C80_labels",
    "C80_labels_refuted",
    "C80_unique",
    "C80_determined",
    "C80_ends_refuted",
    "C80_fuel",
    "C80_straight",
    "C80_zero",
    "C80_grids",
    "C80_grids_big",
    "C80_grids_refuted",
    "C80_grids_never",
    "C80_mistakes"
   ],
   "note": "random.shuffle is an oracle that permutes; endless loops are modelled by a bound on the rounds (None: still running), and more rounds do not change a result. uint8 labels wrap modulo 256 (old numpy). plot_snake (matplotlib) is not modelled: the model yields the pictures handed to it. Colours are assumed to fit the uint8 canvas."
  },
  {
   "property": "C81",
   "status": "proved",
   "theorems": [
    "C81_perceptron",
    "C81_subgradient",
    "C81_frank_wolfe",
    "C81_n_slack",
    "C81_one_slack",
    "C81_default_batches",
    "C81_padding_isometry",
    "C81_one_node",
    "C81_one_node_solvers",
    "C81_one_node_predict",
    "C81_one_node_n_slack",
    "C81_one_node_one_slack",
    "C81_one_node_perceptron",
    "C81_one_node_frank_wolfe",
    "C81_one_node_subgradient",
    "C81_one_node_broadcast_refuted",
    "C81_feature_order",
    "C81_feature_order_potentials",
    "C81_feature_order_one_slack"
   ],
   "note": "Exact arithmetic: with floats the padded zeros change nothing, but reordered sums may round differently. The QP solver is an oracle that sees the same Gram matrix and losses in both runs."
  },
  {
   "property": "C82",
   "status": "proved",
   "theorems": [
    "C82_chow_liu_tree",
    "C82_chow_liu_spanning",
    "C82_chow_liu_tree_refuted",
    "C82_spanning_exists",
    "C82_tree_model",
    "C82_forest_max_product",
    "C82_unique_best",
    "C82_full_graph",
    "C82_full_graph_one_label",
    "C82_full_graph_cycles",
    "C82_tree_edges",
    "C82_random_trees"
   ],
   "note": "mutual_info_score and minimum_spanning_tree are parameters; the latter is assumed to return a spanning forest of least weight of the entries that are not zero (Kruskal's algorithm is proved to meet this). np.random.randn is a given draw."
  },
  {
   "property": "C83",
   "status": "proved",
   "theorems": [
    "C83_binary_hinge",
    "C83_two_class_hinge",
    "C83_label_hinge",
    "C83_two_classes_to_binary",
    "C83_binary_to_two_classes",
    "C83_two_classes_balanced",
    "C83_two_classes_close",
    "C83_two_classes_predict",
    "C83_labels_to_binary",
    "C83_binary_to_labels",
    "C83_labels_n_slack",
    "C83_labels_predict",
    "C83_unary_method"
   ],
   "note": "class weights 1. BinaryClf is compared as an optimisation problem: its own loss-augmented inference fails on the margin (C15)."
  },
  {
   "property": "C84",
   "status": "proved",
   "theorems": [
    "C84_ns_start",
    "C84_ns_batch",
    "C84_ns_points",
    "C84_ns_first",
    "C84_ns_last",
    "C84_ns_resume",
    "C84_ns_resume_near",
    "C84_ns_resume_refuted",
    "C84_ns_resume_empty",
    "C84_fw_points",
    "C84_fw_removed",
    "C84_fw_average",
    "C84_fw_last",
    "C84_fw_bound_refuted",
    "C84_fwb_points",
    "C84_fwb_last",
    "C84_fwb_bounds",
    "C84_fwb_fit",
    "C84_sg_points",
    "C84_sg_last"
   ],
   "note": "moments inside one call of a library function (the QP, inference) do not change attributes. In-place numpy operations are taken as one step. The perceptron is not part of it (see C34); for one-slack see C27."
  },
  {
   "property": "C85",
   "status": "proved",
   "theorems": [
    "C85_settles",
    "C85_locally_best",
    "C85_acyclic_change",
    "C85_whole_graph",
    "C85_one_cycle",
    "C85_inference",
    "C85_inference_converged",
    "C85_two_cycles_refuted",
    "C85_messages_grow",
    "C85_undamped_flips"
   ],
   "note": "exact rational arithmetic; growth is shown for one label (constants are added to all labels alike). max_iter = 0 is excluded: the messages are all zero then."
  },
  {
   "property": "C86",
   "status": "proved",
   "theorems": [
    "C86_no_gap",
    "C86_threshold",
    "C86_persistency",
    "C86_persistent_best",
    "C86_lp_has_an_optimum",
    "C86_inference_lp",
    "C86_ad3",
    "C86_graph_crf_inference",
    "C86_graph_crf_loss_augmented",
    "C86_three_labels_refuted"
   ],
   "note": "exact arithmetic; that the LP backend returns an optimum of the program of the call is a hypothesis (lp_solved), shown to be satisfiable (C86_lp_has_an_optimum)."
  },
  {
   "property": "C87",
   "status": "proved",
   "theorems": [
    "C87_implements",
    "C87_score",
    "C87_relaxation_has_an_optimum",
    "C87_lp_has_an_optimum",
    "C87_lp_solves",
    "C87_ad3_solves",
    "C87_exact_labels_solve",
    "C87_max_product_solves",
    "C87_loss_augmented",
    "C87_inference",
    "C87_upper_bound",
    "C87_equal_on_forests",
    "C87_equal_when_attractive",
    "C87_equal_in_general_refuted",
    "C87_relaxed_prediction",
    "C87_rounded_prediction",
    "C87_rounding",
    "C87_oracle",
    "C87_bounds",
    "C87_one_slack",
    "C87_n_slack_duplicates_refuted",
    "C87_solver_exists"
   ],
   "note": "exact arithmetic; backends are hypotheses (finds_optima, ad3_solves, qp_exact); finds_optima is met by a Fourier-Motzkin solver written for the purpose (C87_solver_exists). One-slack fits without pruning and negativity constraints."
  },
  {
   "property": "C88",
   "status": "proved",
   "theorems": [
    "C88_exact_is_zero_error",
    "C88_n_slack",
    "C88_one_slack",
    "C88_objective",
    "C88_dual_gap",
    "C88_frank_wolfe",
    "C88_certificate_without_error_refuted",
    "C88_perceptron",
    "C88_perceptron_converges",
    "C88_perceptron_without_error_refuted",
    "C88_prediction_loss",
    "C88_margin_above_error",
    "C88_graph_crf",
    "C88_qpbo"
   ],
   "note": "exact arithmetic; eps bounds the error of the oracle at every weight vector (at the given weights for QPBO, whose potentials must fit into 32 bits). n-slack and one-slack optimality without negativity constraints; perceptron online with decay_exponent 0. An oracle that is not exact, and runs with it, are given."
  },
  {
   "property": "C89",
   "status": "proved",
   "theorems": [
    "C89_word_image",
    "C89_letters_recovered",
    "C89_word_image_refused",
    "C89_letter_images",
    "C89_grid_ticks",
    "C89_fold_split",
    "C89_fold_split_refused",
    "C89_fold_split_pairs",
    "C89_transition_parameters",
    "C89_transitions_refused",
    "C89_weight_plots",
    "C89_hidden_edges",
    "C89_hidden_edges_once",
    "C89_latent_instance",
    "C89_latent_instance_refused",
    "C89_initial_states",
    "C89_boxes_are_patches",
    "C89_plot_boxes_visible",
    "C89_plot_boxes_python2",
    "C89_plot_boxes_python3_refuted",
    "C89_plot_boxes_few",
    "C89_class_weights",
    "C89_class_weights_absent",
    "C89_class_weights_void",
    "C89_class_weights_empty",
    "C89_validation_score",
    "C89_validation_all_void",
    "C89_validation_refused"
   ],
   "note": "file reading, drawing and fonts are not modelled; the data of a file is an argument."
  },
  {
   "property": "C90",
   "status": "proved",
   "theorems": [
    "C90_same_problem",
    "C90_fit",
    "C90_fit_call",
    "C90_close",
    "C90_predict",
    "C90_predict_single_refuted",
    "C90_score",
    "C90_same_prediction"
   ],
   "note": "the external programs are parameters assumed to do what their documentation says; exact arithmetic; no rounding of the printed C."
  },
  {
   "property": "C91",
   "status": "proved",
   "theorems": [
    "C91_one_slack_switched",
    "C91_n_slack_switched",
    "C91_one_slack",
    "C91_n_slack",
    "C91_one_slack_converges",
    "C91_n_slack_converges",
    "C91_one_slack_at_once",
    "C91_n_slack_at_once_refuted"
   ],
   "note": "the two inference methods are two models; that fit leaves inference_method at the second one is not part of the result."
  },
  {
   "property": "C92",
   "status": "proved",
   "theorems": [
    "C92_step",
    "C92_steps",
    "C92_small_step",
    "C92_local_minimum",
    "C92_no_repeat",
    "C92_ends",
    "C92_latent_graph",
    "C92_ends_refuted",
    "C92_oneslack"
   ],
   "note": "the base learner's tolerance is a hypothesis on each fit, derived for OneSlackSSVM from its own stopping rule (C92_oneslack); for NSlackSSVM it is left as hypothesis, because its search skips violated outputs without loss."
  },
  {
   "property": "C93",
   "status": "proved",
   "theorems": [
    "C93_nslack_entries",
    "C93_nslack_corrected_gap",
    "C93_nslack_gap_refuted",
    "C93_nslack_last_entries",
    "C93_nslack_batches",
    "C93_nslack_batches_near",
    "C93_oneslack_entries",
    "C93_oneslack_gap",
    "C93_oneslack_cached_gap_refuted"
   ],
   "note": "With several batches the entry of a round belongs to no single weight vector; it is described by the weights before each batch (C93_nslack_batches) and its distance to the primal value after the round is bounded (C93_nslack_batches_near). Entries of cached rounds of OneSlackSSVM are bounded from above only; C93_oneslack_cached_gap_refuted shows that more is false."
  },
  {
   "property": "C94",
   "status": "proved",
   "theorems": [
    "C94_plain_entries",
    "C94_latent_entries",
    "C94_latent_slack",
    "C94_latent_gap",
    "C94_parallel_entries",
    "C94_parallel_slack",
    "C94_parallel_gap",
    "C94_latent_entries_refuted"
   ],
   "note": "Both modes of SubgradientLatentSSVM; the refutation is for n_jobs=1; the meaning of the slacks in the parallel mode needs a loss that charges visible labels (right_loss, true of LatentNodeCRF, not of LatentGraphCRF: C38). Interrupted fits: C84, C69."
  },
  {
   "property": "C95",
   "status": "proved",
   "theorems": [
    "C95_predict",
    "C95_predict_all",
    "C95_score",
    "C95_loss_augmented",
    "C95_completion",
    "C95_completion_fallback",
    "C95_constraint"
   ],
   "note": "the runs of the training (LatentSSVM.fit around NSlackSSVM) are covered for all latent models by C40 and the claims on NSlackSSVM; C95 says what their oracles compute here. The k-means initialisation stays a parameter."
  },
  {
   "property": "C96",
   "status": "proved",
   "theorems": [
    "C96_distance",
    "C96_auto_forgets",
    "C96_auto_refuted",
    "C96_online_best"
   ],
   "note": "exact rationals; no momentum and no averaging. The distance bound is for full batches; online and equal mini-batches have the bound on the best pass. Decreasing rates: C70, C72."
  },
  {
   "property": "C97",
   "status": "proved",
   "theorems": [
    "C97_check",
    "C97_meant",
    "C97_nonnegative",
    "C97_out_of_range",
    "C97_range_refuted",
    "C97_dead_feature",
    "C97_disjoint_refuted"
   ],
   "note": "exact rationals; integer entries (not floats or booleans). The violations are C97_disjoint_refuted and C97_range_refuted."
  },
  {
   "property": "C98",
   "status": "proved",
   "theorems": [
    "C98_best",
    "C98_recorded"
   ],
   "note": "exact arithmetic; batch_size=-1 (full batches), decay_exponent=0, momentum=0, no averaging, rescale_C off; eps bounds the error of the oracle at every weight vector. The values recorded are below the true objective, so they may be below the minimum (example with error 1: nothing is learned and 0 is recorded)."
  },
  {
   "property": "C99",
   "status": "proved",
   "theorems": [
    "C99_step",
    "C99_fit",
    "C99_bound",
    "C99_one",
    "C99_latent_fit",
    "C99_latent_one"
   ],
   "note": "exact arithmetic; the lengths of the training set and of its reshufflings agree; fit returned without an exception. No convergence rate with momentum is claimed."
  }
 ]
}
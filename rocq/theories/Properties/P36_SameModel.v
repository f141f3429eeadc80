(** C75: the graph models are one model: EdgeFeatureGraphCRF with a constant edge feature is the directed GraphCRF, the undirected
    GraphCRF predicts like the directed one with the symmetric weights written out, and the models for chains and pictures are the
    graph models on the graph of the chain or picture, for predictions and for training. *)
From Coq Require Import ZArith String Lia.
From Verif Require Import Spec.SameModelSpec Spec.SingleTypeSpec Spec.AlikeSpec Spec.Energy Spec.GraphSpec Model.Inference Model.MoreInstances
  Model.NSlack Model.Subgradient Model.Perceptron Model.FrankWolfe Proofs.SameModel Proofs.SameModel2 Proofs.Alike Proofs.Alike2.

(** One constant edge feature: the same weights, unary potentials and joint features, and the pairwise table of the directed
    model once per edge.  No condition on the sample, the labels or the weights: the exceptions are the same too. *)
Theorem C75_constant_feature g x w y : g_directed g = true ->
  ef_size (one_edge_feature g) = g_size g /\
  ef_unary (one_edge_feature g) (with_constant_edges x) w = g_unary g x w /\
  ef_pairwise (one_edge_feature g) (with_constant_edges x) w =
    (let! P := g_pairwise g x w in Ok (Pw3 (length (gx_edges x)) (g_states g) (g_states g) (repeat (mdat P) (length (gx_edges x))))) /\
  ef_joint_feature (one_edge_feature g) (with_constant_edges x) (EDiscrete y) = g_joint_feature g x (Discrete y).
Proof.
  intro D. split; [exact (size_const g D)|]. split; [exact (unary_const g D x w)|]. split; [exact (pairwise_const g D x w)|].
  exact (joint_const g D x y).
Qed.
(** relaxed labels: one row of pairwise marginals per edge *)
Theorem C75_constant_feature_relaxed g x um pw : g_directed g = true -> (0 < g_states g)%nat -> mat_ok pw ->
  mrows pw = length (gx_edges x) -> mcols pw = (g_states g * g_states g)%nat ->
  ef_joint_feature (one_edge_feature g) (with_constant_edges x) (ERelaxed um pw) = g_joint_feature g x (Relaxed um (ravel pw)).
Proof. exact (fun D => relaxed_const g D x um pw). Qed.
(** predictions and loss-augmented predictions, with every method of inference_dispatch except ad3+ (which hands the pairwise
    potentials to the library as they are) *)
Theorem C75_constant_feature_predicts b method g cw x y w : g_directed g = true -> method <> "ad3+"%string ->
  ef_inference (dispatch_solver b method) (one_edge_feature g) (with_constant_edges x) w = g_inference (dispatch_solver b method) g x w /\
  ef_loss_augmented_inference (dispatch_solver b method) (one_edge_feature g) cw (with_constant_edges x) y w =
    g_loss_augmented_inference (dispatch_solver b method) g cw x y w.
Proof.
  intros D N. split; [exact (inference_const g D _ (dispatch_blind b method N) x w)|exact (laug_const g D _ (dispatch_blind b method N) cw x y w)].
Qed.
(** so every learner is given the same model (C74) *)
Theorem C75_constant_feature_alike b method g cw S : g_directed g = true -> method <> "ad3+"%string ->
  alike_samples (g_smodel (dispatch_solver b method) g cw) (ef_smodel (dispatch_solver b method) (one_edge_feature g) cw)
    S (map (fun p => (with_constant_edges (fst p), snd p)) S).
Proof.
  intros D N. apply same_all; [split; [symmetry; exact (size_const g D)|reflexivity]|]. apply Forall_forall. intros [x y] _.
  exact (const_alike _ g cw x y D (dispatch_blind b method N)).
Qed.
(** e.g. the cutting-plane learners; a switch to another method is the same switch *)
Theorem C75_constant_feature_one_slack b method sw g cw S ceq solve prm ws : g_directed g = true -> method <> "ad3+"%string -> sw <> "ad3+"%string ->
  os_fit ceq solve prm (base_bmodel (ef_smodel (dispatch_solver b method) (one_edge_feature g) cw))
    (Some (base_bmodel (ef_smodel (dispatch_solver b sw) (one_edge_feature g) cw))) (map (fun p => with_constant_edges (fst p)) S) (map snd S) ws =
  os_fit ceq solve prm (base_bmodel (g_smodel (dispatch_solver b method) g cw))
    (Some (base_bmodel (g_smodel (dispatch_solver b sw) g cw))) (map fst S) (map snd S) ws.
Proof.
  intros D N N'. assert (A := C75_constant_feature_alike b method g cw S D N). assert (A' := C75_constant_feature_alike b sw g cw S D N').
  assert (F := os_fit_eq ceq solve prm _ _ (Some (g_smodel (dispatch_solver b sw) g cw)) (Some (ef_smodel (dispatch_solver b sw) (one_edge_feature g) cw)) S _ ws A A').
  rewrite !map_map in F. symmetry. exact F.
Qed.

(** The undirected model: [w'] writes the triangle of [w] out as a symmetric table. Such a [w'] exists; potentials, predictions,
    loss-augmented predictions (any solver) and scores are those of the directed model. *)
Theorem C75_undirected k f w : length w = g_size (GraphCRF k f false) ->
  exists w', written_out k f w w' /\
  forall solve cw x y,
    g_unary (GraphCRF k f true) x w' = g_unary (GraphCRF k f false) x w /\
    g_pairwise (GraphCRF k f true) x w' = g_pairwise (GraphCRF k f false) x w /\
    g_inference solve (GraphCRF k f true) x w' = g_inference solve (GraphCRF k f false) x w /\
    g_loss_augmented_inference solve (GraphCRF k f true) cw x y w' = g_loss_augmented_inference solve (GraphCRF k f false) cw x y w.
Proof.
  intro L. destruct (written_out_exists k f w L) as [w' H]. exists w'. split; [exact H|]. intros solve cw x y.
  split; [exact (unary_written k f w w' L H x)|]. split; [exact (pairwise_written k f w w' L H x)|].
  split; [exact (inference_written k f w w' L H solve x)|exact (laug_written k f w w' L H solve cw x y)].
Qed.
Theorem C75_undirected_scores k f w w' x y : length w = g_size (GraphCRF k f false) -> written_out k f w w' ->
  mat_ok (gx_features x) -> mcols (gx_features x) = f -> graph_edges (mrows (gx_features x)) (gx_edges x) -> labelling (mrows (gx_features x)) k y ->
  exists psi psi', g_joint_feature (GraphCRF k f false) x (Discrete y) = Ok psi /\ g_joint_feature (GraphCRF k f true) x (Discrete y) = Ok psi' /\ dot w' psi' = dot w psi.
Proof. exact (fun L H => score_written k f w w' L H x y). Qed.

(** GridCRF is the undirected GraphCRF on the graph of the picture *)
Theorem C75_grid solve g cw x gx y w : labels_nodes solve -> grid_ok g x -> grid_graph g x = Ok gx ->
  grid_joint_feature g x y = g_joint_feature (grid_gcrf g) gx y /\
  grid_inference solve g x w = g_inference solve (grid_gcrf g) gx w /\
  (forall z, grid_loss_augmented_inference solve g cw x z w = g_loss_augmented_inference solve (grid_gcrf g) cw gx z w).
Proof.
  intros HS O H. split; [unfold grid_joint_feature; rewrite H; reflexivity|]. split; [exact (grid_inference_same solve g HS x gx w O H)|].
  intro z. exact (grid_laug_same solve g cw HS x gx z w O H).
Qed.
Theorem C75_grid_alike solve g cw (graph : grid_x -> graph_x) S : labels_nodes solve ->
  Forall (fun p => grid_ok g (fst p) /\ grid_graph g (fst p) = Ok (graph (fst p))) S ->
  alike_samples (grid_smodel solve g cw) (g_smodel solve (grid_gcrf g) cw) S (map (fun p => (graph (fst p), snd p)) S).
Proof.
  intros HS F. apply same_all; [split; reflexivity|]. eapply Forall_impl; [|exact F]. intros [x y] [O H]. exact (grid_alike solve g cw HS x _ y O H).
Qed.
(** DirectionalGridCRF with the 4-neighbourhood is EdgeFeatureGraphCRF on the graph of the picture with the directions as edge features *)
Theorem C75_directional solve g cw x ex y w : labels_nodes solve -> gr_neighborhood g = 4%nat -> grid_ok g x -> dir_graph g x = Ok ex ->
  dir_joint_feature g x y = ef_joint_feature (dir_efcrf g) ex y /\
  dir_inference solve g x w = ef_inference solve (dir_efcrf g) ex w /\
  (forall z, dir_loss_augmented_inference solve g cw x z w = ef_loss_augmented_inference solve (dir_efcrf g) cw ex z w).
Proof.
  intros HS H4 O H. split; [exact (dir_joint_same g H4 x ex y O H)|]. split; [exact (dir_inference_same solve g HS H4 x ex w O H)|].
  intro z. exact (dir_laug_same solve g cw HS H4 x ex z w O H).
Qed.
Theorem C75_directional_alike solve g cw (graph : grid_x -> ef_x) S : labels_nodes solve -> gr_neighborhood g = 4%nat ->
  Forall (fun p => grid_ok g (fst p) /\ dir_graph g (fst p) = Ok (graph (fst p))) S ->
  alike_samples (dir_smodel solve g cw) (ef_smodel solve (dir_efcrf g) cw) S (map (fun p => (graph (fst p), snd p)) S).
Proof.
  intros HS H4 F. apply same_all; [split; reflexivity|]. eapply Forall_impl; [|exact F]. intros [x y] [O H]. exact (dir_alike solve g cw HS H4 x _ y O H).
Qed.
(** ChainCRF is GraphCRF on the chain *)
Theorem C75_chain_alike g cw S :
  alike_samples (chain_smodel g cw) (g_smodel max_product_solver g cw) S (map (fun p => (chain_x (fst p), snd p)) S).
Proof. apply same_all; [split; reflexivity|]. apply Forall_forall. intros [x y] _. exact (chain_alike g cw x y). Qed.
(** solvers as the pictures need them *)
Theorem C75_solvers b : labels_nodes (dispatch_solver b "unary") /\ labels_nodes (dispatch_solver b "max-product") /\ labels_nodes max_product_solver /\
  shape_blind max_product_solver.
Proof. split; [exact (unary_labels b)|]. split; [exact (proj1 (max_product_labels b))|]. split; [exact (proj2 (max_product_labels b))|exact max_product_blind]. Qed.

(** A directed model with two states on three nodes; the same with a constant edge feature. *)
Definition q36 (l : list (list Z)) : list (list Qc) := map (map ofZ) l.
Definition ex36_b : backends := Backends (fun _ => Err NonFinite) None (fun z => z) None None.
Definition ex36_g : graph_crf := GraphCRF 2 2 true.
Definition ex36_x : graph_x := GraphX (Mat 3 2 (q36 [[1; 0]; [0; 1]; [-2; 1]]%Z)) [(0, 1); (2, 1)]%nat.
Definition ex36_w : list Qc := map ofZ [1; -1; 0; 2; 3; -1; 2; 0]%Z.
Definition shown {A} (r : res (list A)) : option (list A) := match r with Ok y => Some y | Err _ => None end.
Example C75_constant_computed :
  shown (g_inference (dispatch_solver ex36_b "max-product") ex36_g ex36_x ex36_w) = Some [0; 0; 1]%nat /\
  shown (ef_inference (dispatch_solver ex36_b "max-product") (one_edge_feature ex36_g) (with_constant_edges ex36_x) ex36_w) = Some [0; 0; 1]%nat /\
  option_map (map this) (shown (ef_joint_feature (one_edge_feature ex36_g) (with_constant_edges ex36_x) (EDiscrete [0; 0; 1]%nat))) = Some [1; 1; -2; 1; 1; 0; 1; 0]%Q.
Proof. vm_compute. repeat split. Qed.
(** An undirected model with two states; the written-out weights predict the same.  Its training is not that of the directed
    model: one perceptron step moves the shared weight of (0,1) and (1,0) by the sum of both. *)
Definition ex36_prm : pc_params := PCParams 1 false 0 1 NoAverage.
Definition ex36_fit (g : graph_crf) : option (list Q) :=
  match pc_fit ex36_prm (g_smodel (dispatch_solver ex36_b "max-product") g [1; 1]) (fun y => Ok (ofN (length y))) None [(ex36_x, [0; 1; 1]%nat)] with
  | (l, None) => Some (map this (pl_w l)) | _ => None end.
Example C75_undirected_computed :
  shown (g_inference (dispatch_solver ex36_b "max-product") (GraphCRF 2 2 false) ex36_x (map ofZ [1; -1; 0; 2; 3; -1; 0]%Z)) =
  shown (g_inference (dispatch_solver ex36_b "max-product") (GraphCRF 2 2 true) ex36_x (map ofZ [1; -1; 0; 2; 3; -1; -1; 0]%Z)) /\
  shown (g_inference (dispatch_solver ex36_b "max-product") (GraphCRF 2 2 true) ex36_x (map ofZ [1; -1; 0; 2; 3; -1; -1; 0]%Z)) = Some [0; 0; 1]%nat /\
  ex36_fit (GraphCRF 2 2 false) = Some [2; -2; -2; 2; -2; 1; 1]%Q /\ ex36_fit (GraphCRF 2 2 true) = Some [2; -2; -2; 2; -2; 1; 0; 1]%Q.
Proof. vm_compute. repeat split. Qed.
Lemma ex36_written : written_out 2 2 (map ofZ [1; -1; 0; 2; 3; -1; 0]%Z) (map ofZ [1; -1; 0; 2; 3; -1; -1; 0]%Z).
Proof.
  split; [reflexivity|]. split.
  - intros i Hi. do 4 (destruct i as [|i]; [reflexivity|]). lia.
  - intros s t Hs Ht. destruct s as [|[|s]]; [|destruct t as [|[|t]]|lia]; try (assert (t = 0%nat) as -> by lia); try (exfalso; lia); split; reflexivity.
Qed.
(** a 2 x 2 picture *)
Definition ex36_pic : grid_x := GridX 2 2 1 (map ofZ [1; -1; 2; 0]%Z).
Example C75_pictures_hypotheses : grid_ok (GridCRF 2 1 4) ex36_pic /\
  (exists gx, grid_graph (GridCRF 2 1 4) ex36_pic = Ok gx /\ gx_edges gx = [(0, 1); (2, 3); (0, 2); (1, 3)]%nat) /\
  (exists ex, dir_graph (GridCRF 2 1 4) ex36_pic = Ok ex /\ map (map this) (mdat (ex_edge_features ex)) = [[1; 0]; [1; 0]; [0; 1]; [0; 1]]%Q) /\
  shown (dir_inference (dispatch_solver ex36_b "max-product") (GridCRF 2 1 4) ex36_pic (map ofZ [1; -1; 0; 1; 0; 0; 0; 0; 2; 0]%Z)) = Some [0; 1; 0; 0]%nat.
Proof. split; [split; [reflexivity|cbn; lia]|]. split; [eexists; split; reflexivity|]. split; [eexists; split; reflexivity|]. vm_compute. reflexivity. Qed.
Print Assumptions C75_constant_feature.
Print Assumptions C75_constant_feature_relaxed.
Print Assumptions C75_constant_feature_predicts.
Print Assumptions C75_constant_feature_alike.
Print Assumptions C75_constant_feature_one_slack.
Print Assumptions C75_undirected.
Print Assumptions C75_undirected_scores.
Print Assumptions C75_grid.
Print Assumptions C75_grid_alike.
Print Assumptions C75_directional.
Print Assumptions C75_directional_alike.
Print Assumptions C75_chain_alike.
Print Assumptions C75_solvers.

(** C86: with two labels the linear programming relaxation is exact when edges reward agreement, on every graph, and
    what its optimum decides can be kept whatever the edges reward. *)
From Coq Require Import String.
From Verif Require Import Model.LP Model.Inference Model.CRF Model.Loss Spec.Energy Spec.SolverSpec Spec.LocalPolytope Spec.LPSpec
  Spec.GraphSpec Spec.LossSpec Spec.BinaryLPSpec Spec.DispatchSpec Spec.SingleTypeSpec
  Proofs.Arrays Proofs.GraphCRFProofs Proofs.BinaryLP2 Proofs.BinaryLP3 Proofs.BinaryLP4.
Open Scope string_scope. Open Scope Qc_scope.

(** C86. No gap: no point of the relaxation scores above the best labelling, so the best labelling is an optimum. *)
Theorem C86_no_gap :
  forall n edges U P, graph_edges n edges -> attractive (length edges) P ->
    (forall mu nu, local_polytope n 2 edges mu nu ->
       exists y, maximiser n 2 edges U P y /\ marginal_score n 2 edges U P mu nu <= score n edges U P (lab y)) /\
    (forall y, maximiser n 2 edges U P y -> relaxed_optimum n 2 edges U P (one_hot_mu (lab y)) (one_hot_nu edges (lab y))).
Proof.
  intros n edges U P G A. split; [intros mu nu L; exact (relaxation_tight n edges U P mu nu G A L)|].
  intros y H. exact (best_is_relaxed_optimum n edges U P y G A H).
Qed.
(** C86. Every optimum, fractional or not, gives a best labelling at every threshold. *)
Theorem C86_threshold :
  forall n edges U P mu nu theta, graph_edges n edges -> attractive (length edges) P ->
    relaxed_optimum n 2 edges U P mu nu -> 0 <= theta -> theta < 1 ->
    maximiser n 2 edges U P (threshold n theta mu) /\
    score n edges U P (lab (threshold n theta mu)) = marginal_score n 2 edges U P mu nu.
Proof. intros n edges U P mu nu theta G A O. exact (threshold_best n edges U P G mu nu O theta A). Qed.
(** C86. Persistency, for edges of any kind: replacing labels by those the optimum decides never lowers the score ... *)
Theorem C86_persistency :
  forall n edges U P mu nu z, graph_edges n edges -> relaxed_optimum n 2 edges U P mu nu -> labelling n 2 z ->
    labelling n 2 (keep_decided n mu z) /\
    score n edges U P (lab z) <= score n edges U P (lab (keep_decided n mu z)).
Proof.
  intros n edges U P mu nu z G O L. split; [exact (keep_labelling n mu z L)|exact (keep_decided_better n edges U P G mu nu O z L)].
Qed.
(** C86. ... so some best labelling has all of them. *)
Theorem C86_persistent_best :
  forall n edges U P mu nu, graph_edges n edges -> relaxed_optimum n 2 edges U P mu nu ->
    exists y, maximiser n 2 edges U P y /\
      forall i, (i < n)%nat -> (mu i 1%nat = 1 -> lab y i = 1%nat) /\ (mu i 1%nat = 0 -> lab y i = 0%nat).
Proof. exact persistent_best. Qed.
(** C86. The linear program that inference_lp builds has an optimum. *)
Theorem C86_lp_has_an_optimum :
  forall U p edges n, mat_ok U -> mrows U = n -> mcols U = 2%nat -> (0 < n)%nat ->
    graph_edges n edges -> pw_ok p -> pw_shape p (length edges) 2 -> attractive (length edges) (pw_table p) ->
    exists pws pb x, validate_params U p (length edges) = Ok (2%nat, pws) /\
      lp_build (mat_neg U) edges (map (map (map Qcopp)) pws) = Ok pb /\ optimal pb x.
Proof. exact lp_has_optimum. Qed.
(** C86. inference_lp with two labels: the marginals of the relaxed call can be kept where they are 0 or 1; when edges
    reward agreement, the labels of the default call are a best labelling with the reported energy (cycles and ties
    included), and so is every threshold of the marginals. *)
Theorem C86_inference_lp :
  forall solve U p edges n, mat_ok U -> mrows U = n -> mcols U = 2%nat -> (0 < n)%nat ->
    graph_edges n edges -> pw_ok p -> pw_shape p (length edges) 2 -> lp_solved solve U p edges ->
    exists y e um pm, inference_lp solve U p edges false = Ok (Labels y, e) /\
      inference_lp solve U p edges true = Ok (Marginals um pm, e) /\ labelling n 2 y /\
      (forall z, labelling n 2 z ->
         score n edges (mget U) (pw_table p) (lab z) <= score n edges (mget U) (pw_table p) (lab (keep_decided n (mget um) z))) /\
      (attractive (length edges) (pw_table p) ->
         maximiser n 2 edges (mget U) (pw_table p) y /\ score n edges (mget U) (pw_table p) (lab y) = - e /\
         forall theta, 0 <= theta -> theta < 1 -> maximiser n 2 edges (mget U) (pw_table p) (threshold n theta (mget um))).
Proof. exact inference_lp_binary. Qed.
(** C86. inference_ad3, when the library's marginals are an optimum of the relaxation and labels are asked for (or the
    library reports an integral solution). *)
Theorem C86_ad3 :
  forall b lib U p edges relaxed bnb exc n pws um pm energy st,
    b_ad3 b = Some lib -> mat_ok U -> mrows U = n -> mcols U = 2%nat -> graph_edges n edges ->
    validate_params U p (length edges) = Ok (2%nat, pws) ->
    ad3_graph lib U edges pws bnb = Ok (um, pm, energy, st) ->
    mrows um = n -> mcols um = 2%nat ->
    relaxed_optimum n 2 edges (mget U) (pw_table p) (mget um) (fun e s t => mget pm e (s * 2 + t)) ->
    (relaxed = false \/ st = Integral) -> attractive (length edges) (pw_table p) ->
    exists y, inference_ad3 b (Single U p edges) relaxed bnb exc = Ok (RLabels y, - energy) /\
      maximiser n 2 edges (mget U) (pw_table p) y.
Proof. exact ad3_binary. Qed.
(** C86. GraphCRF with two states and inference_method='lp', on any graph: if the pair weights reward agreement,
    inference maximises dot(w, joint_feature) ... *)
Theorem C86_graph_crf_inference :
  forall b g x w U P, mat_ok (gx_features x) -> mcols (gx_features x) = g_features g ->
    graph_edges (mrows (gx_features x)) (gx_edges x) -> length w = g_size g -> g_states g = 2%nat ->
    (0 < mrows (gx_features x))%nat ->
    pair_score 2 (g_features g) (g_directed g) w 0 1 + pair_score 2 (g_features g) (g_directed g) w 1 0 <=
    pair_score 2 (g_features g) (g_directed g) w 0 0 + pair_score 2 (g_features g) (g_directed g) w 1 1 ->
    g_potentials g x w = Ok (U, P) -> lp_solved (b_lp b) U (Pw2 P) (gx_edges x) ->
    exists y psi, g_inference (dispatch_solver b "lp") g x w = Ok y /\ labelling (mrows (gx_features x)) 2 y /\
      g_joint_feature g x (Discrete y) = Ok psi /\
      forall y' psi', labelling (mrows (gx_features x)) 2 y' -> g_joint_feature g x (Discrete y') = Ok psi' -> dot w psi' <= dot w psi.
Proof.
  exact (fun b g x w U P H1 H2 H3 H4 H5 H6 H7 => graph_crf_lp b g x w (Build_valid_x g x H1 H2 H3) H4 H5 H6 H7 U P).
Qed.
(** C86. ... and loss-augmented inference maximises dot(w, joint_feature) + loss, whatever the class weights: the loss
    only changes the unaries. *)
Theorem C86_graph_crf_loss_augmented :
  forall b g x w cw y U P U', mat_ok (gx_features x) -> mcols (gx_features x) = g_features g ->
    graph_edges (mrows (gx_features x)) (gx_edges x) -> length w = g_size g -> g_states g = 2%nat ->
    (0 < mrows (gx_features x))%nat ->
    pair_score 2 (g_features g) (g_directed g) w 0 1 + pair_score 2 (g_features g) (g_directed g) w 1 0 <=
    pair_score 2 (g_features g) (g_directed g) w 0 0 + pair_score 2 (g_features g) (g_directed g) w 1 1 ->
    length cw = 2%nat -> labelling (mrows (gx_features x)) 2 y ->
    g_potentials g x w = Ok (U, P) -> loss_augment_unaries U y cw = Ok U' -> lp_solved (b_lp b) U' (Pw2 P) (gx_edges x) ->
    exists yh psi l, g_loss_augmented_inference (dispatch_solver b "lp") g cw x y w = Ok yh /\
      labelling (mrows (gx_features x)) 2 yh /\ g_joint_feature g x (Discrete yh) = Ok psi /\ loss (Some cw) y yh = Ok l /\
      forall y' psi' l', labelling (mrows (gx_features x)) 2 y' -> g_joint_feature g x (Discrete y') = Ok psi' ->
        loss (Some cw) y y' = Ok l' -> dot w psi' + l' <= dot w psi + l.
Proof.
  exact (fun b g x w cw y U P U' H1 H2 H3 H4 H5 H6 H7 =>
    graph_crf_lp_augmented b g x w (Build_valid_x g x H1 H2 H3) H4 H5 H6 H7 cw y U P U').
Qed.
(** C86. Three labels: on a triangle that rewards agreement the relaxation is not exact; whatever optimum the solver
    returns, the reported value exceeds the score of every labelling by at least one half. *)
Theorem C86_three_labels_refuted :
  forall solve pws pb x relaxed,
    validate_params ex47_U3 ex47_p3 3 = Ok (3%nat, pws) ->
    lp_build (mat_neg ex47_U3) ex47_edges (map (map (map Qcopp)) pws) = Ok pb ->
    solve pb = Ok x -> optimal pb x ->
    exists a e, inference_lp solve ex47_U3 ex47_p3 ex47_edges relaxed = Ok (a, e) /\
      forall y, labelling 3 3 y -> score 3 ex47_edges (mget ex47_U3) (pw_table ex47_p3) (lab y) + ex47_half <= - e.
Proof. exact ex47_three. Qed.

(** The hypotheses are met: a triangle that rewards agreement, and an optimum in which every node is undecided. *)
Example C86_met :
  graph_edges 3 ex47_edges /\ attractive 3 (pw_table (Pw2 ex47_P)) /\ lp_solved (fun _ => Ok ex47_frac) ex47_U (Pw2 ex47_P) ex47_edges /\
  mat_ok (gx_features ex47_x) /\ length ex47_w = g_size ex47_g /\
  pair_score 2 1 false ex47_w 0 1 + pair_score 2 1 false ex47_w 1 0 <= pair_score 2 1 false ex47_w 0 0 + pair_score 2 1 false ex47_w 1 1 /\
  dispatch_solver (ex47_b ex47_frac) "lp" ex47_U (Pw2 ex47_P) ex47_edges = Ok [0; 0; 0]%nat /\
  threshold 3 (Q2Qc (1 # 3)) (var_mu 2 ex47_frac) = [1; 1; 1]%nat /\
  keep_decided 3 (var_mu 2 ex47_frac) [0; 1; 0]%nat = [0; 1; 0]%nat.
Proof.
  split; [repeat constructor|]. split; [apply ex47_attractive|]. split; [exact ex47_solved|].
  split; [apply mat_okb_ok; reflexivity|]. split; [reflexivity|]. split; [vm_compute; discriminate|].
  split; [vm_compute; reflexivity|]. split; [vm_compute; reflexivity|]. vm_compute; reflexivity.
Qed.
(** The linear program of C86_three_labels_refuted has an optimum. *)
Example C86_three_labels_met :
  exists pws pb x, validate_params ex47_U3 ex47_p3 3 = Ok (3%nat, pws) /\
    lp_build (mat_neg ex47_U3) ex47_edges (map (map (map Qcopp)) pws) = Ok pb /\ optimal pb x.
Proof. exact ex47_three_optimum. Qed.

Print Assumptions C86_no_gap.
Print Assumptions C86_threshold.
Print Assumptions C86_persistency.
Print Assumptions C86_persistent_best.
Print Assumptions C86_lp_has_an_optimum.
Print Assumptions C86_inference_lp.
Print Assumptions C86_ad3.
Print Assumptions C86_graph_crf_inference.
Print Assumptions C86_graph_crf_loss_augmented.
Print Assumptions C86_three_labels_refuted.

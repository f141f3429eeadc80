(** Properties of LatentNodeCRF and EdgeFeatureLatentNodeCRF (models/latent_node_crf.py): C39, C57. *)
From Verif Require Import Model.LatentNode Model.LatentLearner Spec.GraphSpec Spec.SolverSpec Model.ChainCRF
  Proofs.LatentNodeProofs Proofs.LatentNodeProofs2 Proofs.LatentNodeProofs3 Proofs.LatentNodeProofs4 Spec.LatentNodeSpec.

(** * C39: completion of observed labels *)
(** A completion starts with the labels, whatever the solver; its label is [y] exactly when hidden
    nodes carry hidden states. *)
Theorem C39_latent_extends : forall solve g x y w h, Forall (fun l => (l < ln_labels g)%nat) y -> ln_latent solve g x y w = Ok h ->
  exists z, h = y ++ z /\ (ln_label_from_latent g h = y <-> Forall (fun s => (ln_labels g <= s)%nat) z).
Proof.
  intros solve g x y w h HY E. destruct (ln_latent_prefix _ _ _ _ _ _ E) as [z ->]. exists z. split; [reflexivity|exact (prefix_label g y z HY)].
Qed.
(** It raises ValueError if the solver answers anything else. *)
Theorem C39_latent_total : forall solve g x nv y w, node_instance g x nv -> length w = ln_size g -> (0 < nv + lx_hidden x)%nat -> (0 < ln_states g)%nat ->
  labelling nv (ln_labels g) y ->
  (forall U P, mat_ok U -> mat_ok P -> mrows U = (nv + lx_hidden x)%nat -> mcols U = ln_states g -> mrows P = ln_states g -> mcols P = ln_states g ->
     exists h, solve U (Pw2 P) (lx_edges x) = Ok h /\ labelling (nv + lx_hidden x) (ln_states g) h) ->
  (exists h, ln_latent solve g x y w = Ok h /\ labelling (nv + lx_hidden x) (ln_states g) h) \/ ln_latent solve g x y w = Err ValueError.
Proof. intros solve g x nv y w HX HW Hn HS. exact (ln_latent_total g x nv HX w HW Hn HS solve y). Qed.
(** With an exact solver and small potentials: a best completion, whose label is [y]. *)
Theorem C39_latent_best : forall g x nv w solve y, node_instance g x nv -> length w = ln_size g ->
  exact_solver_on solve (nv + lx_hidden x) (lx_edges x) -> node_small g x nv w 0 -> (0 < nv + lx_hidden x)%nat ->
  labelling nv (ln_labels g) y -> (0 < ln_hidden g)%nat \/ lx_hidden x = 0%nat ->
  exists h, ln_latent solve g x y w = Ok h /\ completes (ln_labels g) (ln_hidden g) (lx_hidden x) y h /\ ln_label_from_latent g h = y /\
    forall h', completes (ln_labels g) (ln_hidden g) (lx_hidden x) y h' -> node_total g x nv w h' <= node_total g x nv w h.
Proof.
  intros g x nv w solve y HX HW HE SM Hn HY HK.
  destruct (ln_completion_best g x nv w 0 solve HX HW HE (Qcle_refl 0) SM y Hn HY HK) as [h [E1 [E2 E3]]].
  exists h. split; [exact E1|]. split; [exact E2|]. split; [exact (completes_label _ _ _ _ _ (proj2 HY) E2)|exact E3].
Qed.
(** In general a hidden node may get a label, and the label of the completion is longer than [y]. *)
Theorem C39_latent_label_refuted : exists g x w y h, exact_solver_on max_product_solver 2 (lx_edges x) /\ node_instance g x 1 /\ length w = ln_size g /\
  labelling 1 (ln_labels g) y /\ ln_latent max_product_solver g x y w = Ok h /\ ln_label_from_latent g h <> y.
Proof.
  destruct latent_label_wrong as [A1 [A2 [A3 [A4 [A5 A6]]]]]. exists ex15_g, ex15_x, ex15_w, [0%nat], [0; 0]%nat. repeat (split; [assumption|]). rewrite A6. discriminate.
Qed.
(** EdgeFeatureLatentNodeCRF overwrites instead of raising. *)
Theorem C39_edge_latent_extends : forall solve g x y w h, Forall (fun l => (l < ln_labels (el_node g))%nat) y -> el_latent solve g x y w = Ok h ->
  exists z, h = y ++ z /\ (ln_label_from_latent (el_node g) h = y <-> Forall (fun s => (ln_labels (el_node g) <= s)%nat) z).
Proof.
  intros solve g x y w h HY E. destruct (el_latent_prefix _ _ _ _ _ _ E) as [z ->]. exists z. split; [reflexivity|exact (prefix_label _ y z HY)].
Qed.
Theorem C39_edge_latent_total : forall solve g x nv y w, edge_instance g x nv -> length w = el_size g -> (0 < nv + lx_hidden (xl_node x))%nat ->
  (0 < ln_states (el_node g))%nat -> (0 < el_edge_features g)%nat -> labelling nv (ln_labels (el_node g)) y ->
  (forall U P, mat_ok U -> mrows U = (nv + lx_hidden (xl_node x))%nat -> mcols U = ln_states (el_node g) -> pw_shape P (length (lx_edges (xl_node x))) (ln_states (el_node g)) ->
     exists h, solve U P (lx_edges (xl_node x)) = Ok h /\ labelling (nv + lx_hidden (xl_node x)) (ln_states (el_node g)) h) ->
  exists h, el_latent solve g x y w = Ok h /\ labelling (nv + lx_hidden (xl_node x)) (ln_states (el_node g)) h /\ exists z, h = y ++ z.
Proof. intros solve g x nv y w HX HW Hn HS HD. exact (el_latent_total g x nv HX w HW Hn HS HD solve y). Qed.
(** ** initial completions *)
Theorem C39_kmeans_completes : forall cluster g S H, ln_clusters cluster -> ln_init_latent cluster g S = Ok H ->
  Forall2 (fun s h => (0 < lx_hidden (fst s))%nat -> completes (ln_labels g) (ln_hidden g) (lx_hidden (fst s)) (snd s) h /\ ln_label_from_latent g h = snd s) S H.
Proof.
  intros cluster g S H HC E. pose proof (kmeans_completes cluster g S H HC E) as F. clear E. induction F as [|s h S H [F1 [F2 _]] F IH]; constructor; [|exact IH].
  intros Hh. split; [exact (F2 Hh)|exact (completes_label _ _ _ _ _ F1 (F2 Hh))].
Qed.
(** They are computed exactly when the last node of every instance is on an edge. *)
Theorem C39_kmeans_succeeds_iff : forall cluster g S, S <> [] -> (forall k rows, exists km, cluster k rows = Ok km) ->
  Forall (fun s => node_instance g (fst s) (length (snd s)) /\ Forall (fun l => (l < ln_labels g)%nat) (snd s) /\ (0 < length (snd s))%nat) S ->
  (exists H, ln_init_latent cluster g S = Ok H) <->
  Forall (fun s => exists p, In p (lx_edges (fst s)) /\ (fst p = length (snd s) + lx_hidden (fst s) - 1 \/ snd p = length (snd s) + lx_hidden (fst s) - 1)%nat) S.
Proof. exact kmeans_succeeds. Qed.
(** What is clustered: for each hidden node, the shares of the labels among its visible neighbours. *)
Theorem C39_kmeans_features : forall L nf x y F i, hidden_features L nf x y = Ok F -> (i < lx_hidden x)%nat ->
  nth i F [] = tab1 L (fun l => ofN (visible_joined (lx_edges x) (length y) y (length y + i) l) /
    Qcmax (sumn L (fun l => ofN (visible_joined (lx_edges x) (length y) y (length y + i) l))) 1).
Proof. exact features_shares. Qed.
(** Without hidden nodes the shares of every visible node are clustered. *)
Theorem C39_kmeans_features_no_hidden : forall L nf x y F i, hidden_features L nf x y = Ok F -> lx_hidden x = O ->
  length F = length y /\ ((i < length y)%nat ->
  nth i F [] = tab1 L (fun l => ofN (visible_joined (lx_edges x) (length y) y i l) /
    Qcmax (sumn L (fun l => ofN (visible_joined (lx_edges x) (length y) y i l))) 1)).
Proof. exact features_shares0. Qed.
(** Without hidden nodes every visible node is taken for a hidden one. *)
Theorem C39_kmeans_no_hidden_refuted : exists S H, ln_clusters ex15_cluster /\ Forall (fun s => lx_hidden (fst s) = 0%nat) S /\
  Forall (fun s => node_instance ex15_g2 (fst s) (length (snd s))) S /\
  ln_init_latent ex15_cluster ex15_g2 S = Ok H /\ ~ Forall2 (fun s h => completes (ln_labels ex15_g2) (ln_hidden ex15_g2) (lx_hidden (fst s)) (snd s) h) S H.
Proof.
  destruct no_hidden_wrong as [h [A1 [A2 A3]]]. eexists. eexists. split; [exact ex15_clusters|]. split; [|split; [|split; [exact A1|]]].
  - constructor; [reflexivity|constructor].
  - constructor; [|constructor]. split; [split; [reflexivity|repeat constructor]|reflexivity|reflexivity|repeat constructor; cbn; lia].
  - intros F. apply A3. inversion F; assumption.
Qed.

(** * C57: scores, losses, loss augmentation *)
Theorem C57_potentials : forall g x nv w, node_instance g x nv -> length w = ln_size g -> (0 < nv + lx_hidden x)%nat -> (0 < ln_states g)%nat ->
  exists U P M, ln_unary g x w = Ok U /\ ln_pairwise g x w = Ok P /\ 1 <= M /\ mrows U = (nv + lx_hidden x)%nat /\ mcols U = ln_states g /\
  (forall i s, (i < nv + lx_hidden x)%nat -> (s < ln_states g)%nat -> mget U i s = if Bool.eqb (i <? nv)%nat (s <? ln_labels g)%nat then node_score g x nv w i s else - ofN 100 * M) /\
  (forall i s, (i < nv + lx_hidden x)%nat -> (s < ln_states g)%nat -> node_score g x nv w i s <= M) /\
  (forall s t, (s < ln_states g)%nat -> (t < ln_states g)%nat -> mget P s t = joint_score g w s t).
Proof.
  intros g x nv w HX HW Hn HS. destruct (ln_potentials g x nv HX w HW Hn HS) as [U [P [M [A1 [A2 [A3 [A4 [A5 [A6 [A7 [A8 [A9 [B1 [B2 B3]]]]]]]]]]]]]].
  exists U, P, M. repeat (split; [assumption|]). assumption.
Qed.
(** The joint feature is linear: its product with the weights is the score of the labelling. *)
Theorem C57_joint_feature_linear : forall g x nv w h, node_instance g x nv -> length w = ln_size g -> labelling (nv + lx_hidden x) (ln_states g) h ->
  exists psi, ln_joint_feature g x (LNDiscrete h) = Ok psi /\ length psi = ln_size g /\ dot w psi = node_total g x nv w h.
Proof. intros g x nv w h HX. exact (ln_joint_discrete g x nv HX w h). Qed.
Theorem C57_joint_feature_relaxed : forall g x nv w um pw n_pw, node_instance g x nv -> length w = ln_size g -> (0 < ln_states g)%nat ->
  mrows um = (nv + lx_hidden x)%nat -> mcols um = ln_states g -> length pw = (n_pw * (ln_states g * ln_states g))%nat ->
  exists psi, ln_joint_feature g x (LNRelaxed um pw) = Ok psi /\ length psi = ln_size g /\
  dot w psi = sumn (nv + lx_hidden x) (fun i => sumn (ln_states g) (fun s => mget um i s * node_score g x nv w i s)) +
    sumn n_pw (fun e => sumn (ln_states g) (fun s => sumn (ln_states g) (fun t => get1 pw ((e * ln_states g + s) * ln_states g + t) * joint_score g w s t))).
Proof. intros g x nv w um pw n_pw HX. exact (ln_joint_relaxed g x nv HX w um pw n_pw). Qed.
Theorem C57_edge_joint_feature_linear : forall g x nv w h, edge_instance g x nv -> edge_declared g -> length w = el_size g ->
  lx_edges (xl_node x) <> [] -> labelling (nv + lx_hidden (xl_node x)) (ln_states (el_node g)) h ->
  exists psi, el_joint_feature g x (ELDiscrete h) = Ok psi /\ length psi = el_size g /\ dot w psi = edge_effective_total g x nv w h /\
    (edge_weights_ok g w -> dot w psi = edge_total g x nv w h).
Proof.
  intros g x nv w h HX HD HW HN HH. destruct (el_joint_discrete g x nv HX w h HD HW HN HH) as [psi [E [L D]]]. exists psi. repeat (split; [assumption|]).
  intros HO. rewrite D. exact (effective_total_eq g x nv HX w h HO HH).
Qed.
Theorem C57_edge_joint_feature_relaxed : forall g x nv w um pw, edge_instance g x nv -> edge_declared g -> length w = el_size g ->
  mrows um = (nv + lx_hidden (xl_node x))%nat -> mcols um = ln_states (el_node g) -> mrows pw = length (lx_edges (xl_node x)) ->
  mcols pw = (ln_states (el_node g) * ln_states (el_node g))%nat ->
  exists psi, el_joint_feature g x (ELRelaxed um pw) = Ok psi /\ length psi = el_size g /\
  dot w psi = sumn (nv + lx_hidden (xl_node x)) (fun i => sumn (ln_states (el_node g)) (fun s => mget um i s * node_score (el_node g) (xl_node x) nv w i s)) +
    sumn (length (lx_edges (xl_node x))) (fun e => sumn (ln_states (el_node g)) (fun s => sumn (ln_states (el_node g)) (fun t =>
      mget pw e (s * ln_states (el_node g) + t) * sumn (el_edge_features g) (fun f => mget (xl_edge_features x) e f *
        effective_weight (ln_states (el_node g)) 0 (el_sym g) (el_anti g) (skipn (ln_input_states (el_node g) * ln_features (el_node g)) w) f s t)))).
Proof. intros g x nv w um pw HX. exact (el_joint_relaxed g x nv HX w um pw). Qed.
(** Losses compare the labels of the visible nodes. *)
Theorem C57_losses : forall g nv nh h, length (ln_cw g) = ln_labels g -> two_level (ln_labels g) (ln_hidden g) nv nh h ->
  (forall h', two_level (ln_labels g) (ln_hidden g) nv nh h' ->
     ln_loss g h h' = Ok (hamming nv (get1 (ln_cw g)) (lab h) (lab h')) /\ visible_loss g h h' = hamming nv (get1 (ln_cw g)) (lab h) (lab h')) /\
  (forall m, (nv <= mrows m)%nat -> (ln_labels g <= mcols m)%nat ->
     ln_continuous_loss g h m = Ok (sumn nv (fun i => get1 (ln_cw g) (lab h i) * (1 - mget m i (lab h i))))) /\
  ln_max_loss g h = Ok (sumn nv (fun i => get1 (ln_cw g) (lab h i))).
Proof. exact losses_all. Qed.
(** Loss augmentation adds that loss to the score of every labelling. *)
Theorem C57_augmented_score : forall g nv nh h u, length (ln_cw g) = ln_labels g -> two_level (ln_labels g) (ln_hidden g) nv nh h ->
  mat_ok u -> mrows u = (nv + nh)%nat -> mcols u = ln_states g ->
  exists u', ln_augment g h (seq 0 (ln_states g)) u = Ok u' /\
  (forall i s, (i < nv + nh)%nat -> (s < ln_states g)%nat ->
     mget u' i s = mget u i s + if ((i <? nv) && negb (lab h i =? s))%nat then get1 (ln_cw g) (lab h i) else 0) /\
  forall edges P h', labelling (nv + nh) (ln_states g) h' ->
    score (nv + nh) edges (mget u') P (lab h') = score (nv + nh) edges (mget u) P (lab h') + hamming nv (get1 (ln_cw g)) (lab h) (lab h').
Proof. exact augmented_two_level. Qed.
(** With an exact solver and small potentials both models are structured prediction models with
    latent variables: the results on learners (C38, C40, C56) apply. *)
Theorem C57_latent_model : forall g solve cluster nvf x y w R, node_instance g x (nvf x) -> length w = ln_size g -> weights_within g R ->
  exact_solver_on solve (nvf x + lx_hidden x) (lx_edges x) -> (0 < nvf x + lx_hidden x)%nat ->
  labelling (nvf x) (ln_labels g) y -> (0 < ln_hidden g)%nat \/ lx_hidden x = 0%nat -> node_small g x (nvf x) w R ->
  latent_exact (ln_lmodel solve cluster g) (ln_task g nvf) (ln_E g) (ln_size g) w (x, y) /\
  exact_inference (ln_smodel solve g) (ln_task g nvf) w x /\
  right_loss (ln_lmodel solve cluster g) (ln_task g nvf) (ln_E g) (x, y).
Proof. exact ln_latent_exact. Qed.
Theorem C57_edge_latent_model : forall g solve cluster nvf x y w R, edge_instance g x (nvf x) -> edge_declared g -> lx_edges (xl_node x) <> [] -> (0 < el_edge_features g)%nat ->
  length w = el_size g -> edge_weights_ok g w -> weights_within (el_node g) R ->
  exact_on_tables solve (nvf x + lx_hidden (xl_node x)) (lx_edges (xl_node x)) -> (0 < nvf x + lx_hidden (xl_node x))%nat ->
  labelling (nvf x) (ln_labels (el_node g)) y -> (0 < ln_hidden (el_node g))%nat \/ lx_hidden (xl_node x) = 0%nat -> edge_small g x (nvf x) w R ->
  latent_exact (el_lmodel solve cluster g) (el_task g nvf) (el_E g) (el_size g) w (x, y) /\
  exact_inference (el_smodel solve g) (el_task g nvf) w x /\
  right_loss (el_lmodel solve cluster g) (el_task g nvf) (el_E g) (x, y).
Proof. exact el_latent_exact. Qed.
(** Failures of the edge version: no edge features, no edges. *)
Theorem C57_edge_features_needed : forall g x w solve, el_edge_features g = 0%nat ->
  (exists e, el_pairwise g x w = Err e) /\ (forall h, el_inference solve g x w <> Ok h) /\ (forall y h, el_latent solve g x y w <> Ok h).
Proof. exact el_no_edge_features. Qed.
Theorem C57_edges_needed : forall g x nv h, edge_instance g x nv -> lx_edges (xl_node x) = [] -> labelling (nv + lx_hidden (xl_node x)) (ln_states (el_node g)) h ->
  el_joint_feature g x (ELDiscrete h) = Err ValueError.
Proof. exact el_no_edges. Qed.

(** * the hypotheses are met, and values *)
Example C39_hypotheses_met : node_instance ex15_g2 ex15_x2 2 /\ length ex15_w2 = ln_size ex15_g2 /\ exact_solver_on max_product_solver 3 (lx_edges ex15_x2) /\
  node_small ex15_g2 ex15_x2 2 ex15_w2 1 /\ weights_within ex15_g2 1 /\ labelling 2 2 [0; 1]%nat /\
  ln_latent max_product_solver ex15_g2 ex15_x2 [0; 1]%nat ex15_w2 = Ok [0; 1; 3]%nat /\
  ln_latent max_product_solver ex15_g2 ex15_x2 [1; 0]%nat ex15_w2 = Ok [1; 0; 2]%nat /\
  ln_inference max_product_solver ex15_g2 ex15_x2 ex15_w2 = Ok [0; 1; 3]%nat /\
  ln_clusters ex15_cluster /\
  ln_init_latent ex15_cluster ex15_g2 [(ex15_x2, [0; 1]%nat)] = Ok [[0; 1; 3]%nat].
Proof.
  split; [exact ex15_instance2|]. split; [reflexivity|]. split; [exact ex15_exact2|]. split; [exact ex15_small2|]. split; [exact ex15_weights2|].
  split; [split; [reflexivity|repeat constructor]|]. split; [vm_compute; reflexivity|]. split; [vm_compute; reflexivity|]. split; [vm_compute; reflexivity|]. split; [exact ex15_clusters|]. vm_compute. reflexivity.
Qed.
Example C57_hypotheses_met : edge_instance ex15_e ex15_xe 2 /\ edge_declared ex15_e /\ lx_edges (xl_node ex15_xe) <> [] /\ length ex15_we = el_size ex15_e /\
  edge_weights_ok ex15_e ex15_we /\ exact_on_tables ex15_solve 3 (lx_edges (xl_node ex15_xe)) /\ edge_small ex15_e ex15_xe 2 ex15_we 1 /\
  el_latent ex15_solve ex15_e ex15_xe [0; 1]%nat ex15_we = Ok [0; 1; 3]%nat /\
  match el_joint_feature ex15_e ex15_xe (ELDiscrete [0; 1; 3]%nat), ln_joint_feature ex15_g2 ex15_x2 (LNDiscrete [0; 1; 3]%nat) with
  | Ok p, Ok p' => this (dot ex15_we p) = 3%Q /\ this (dot ex15_w2 p') = 2%Q | _, _ => False end /\
  match ln_loss ex15_g2 [0; 1; 3]%nat [1; 1; 2]%nat with Ok q => this q = 1%Q | Err _ => False end.
Proof.
  split; [exact ex15_edge_instance|]. split; [exact ex15_declared|]. split; [discriminate|]. split; [reflexivity|]. split; [exact ex15_edge_weights|]. split; [exact ex15_solve_exact|].
  split; [exact ex15_edge_small|]. vm_compute. repeat split.
Qed.
Print Assumptions C39_latent_extends.
Print Assumptions C39_latent_total.
Print Assumptions C39_latent_best.
Print Assumptions C39_latent_label_refuted.
Print Assumptions C39_edge_latent_extends.
Print Assumptions C39_edge_latent_total.
Print Assumptions C39_kmeans_completes.
Print Assumptions C39_kmeans_succeeds_iff.
Print Assumptions C39_kmeans_features.
Print Assumptions C39_kmeans_features_no_hidden.
Print Assumptions C39_kmeans_no_hidden_refuted.
Print Assumptions C57_potentials.
Print Assumptions C57_joint_feature_linear.
Print Assumptions C57_joint_feature_relaxed.
Print Assumptions C57_edge_joint_feature_linear.
Print Assumptions C57_edge_joint_feature_relaxed.
Print Assumptions C57_losses.
Print Assumptions C57_augmented_score.
Print Assumptions C57_latent_model.
Print Assumptions C57_edge_latent_model.
Print Assumptions C57_edge_features_needed.
Print Assumptions C57_edges_needed.

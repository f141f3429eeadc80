(** C81: models that differ in how they pad or number their weights and in how they write their inputs and labels are trained to
    corresponding weights by all five learners.  Two uses: a CRF on graphs with one node is the multiclass SVM
    (examples/svm_as_crf.py), and the order of the node features does not matter. *)
From Coq Require Import ZArith String Lia Permutation.
From Verif Require Import Spec.SimilarSpec Spec.FeatureOrderSpec Spec.SingleTypeSpec Model.Inference Model.BatchInstances
  Proofs.NSlackExamples Proofs.OneSlackExamples Proofs.Alike Proofs.Similar2 Proofs.Similar3 Proofs.OneNode Proofs.OneNode2 Proofs.FeatureOrder.

(** ** The learners *)
Section Learners.
Context {X X' Y Y' : Type}.
Variables (n n' : nat) (V : list Qc -> list Qc -> Prop) (L : X -> X' -> Y -> Y' -> Prop).
(** StructuredPerceptron: corresponding weights, the same loss curve, and the same exception if there is one *)
Theorem C81_perceptron (m : smodel X Y) (m' : smodel X' Y') prm mloss mloss' old S S' : isometry n n' V ->
  similar_samples V L n n' m m' S S' -> Forall2 (fun p p' => mloss (snd p) = mloss' (snd p')) S S' ->
  let q := pc_fit prm m mloss old S in let q' := pc_fit prm m' mloss' old S' in
  V (pl_w (fst q)) (pl_w (fst q')) /\ pl_curve (fst q) = pl_curve (fst q') /\ pl_avg (fst q) = pl_avg (fst q') /\ snd q = snd q'.
Proof. intros HV [HS HF]. exact (sim_pc_fit n n' V L HV m m' HS prm mloss mloss' old S S' HF). Qed.
(** SubgradientSSVM, online or in batches, on one or several processes, starting anew or from an earlier fit; the shuffles permute
    the samples alike *)
Theorem C81_subgradient (bm : bmodel X Y) (bm' : bmodel X' Y') prm shuf shuf' warm S S' A A' : isometry n n' V ->
  similar_models V L n n' bm bm' -> Forall2 (similar V L (bm_s bm) (bm_s bm')) S S' -> S <> [] ->
  (forall it B B', Forall2 (similar V L (bm_s bm) (bm_s bm')) B B' ->
     Forall2 (similar V L (bm_s bm) (bm_s bm')) (shuf it B) (shuf' it B') /\ (B <> [] -> shuf it B <> [])) ->
  similar_sgl V A A' -> rel_res (similar_sgl V) (sg_fit prm bm shuf warm S A) (sg_fit prm bm' shuf' warm S' A').
Proof. intros HV HB. exact (sim_sg_fit n n' V L HV bm bm' HB prm shuf shuf' warm S S' A A'). Qed.
(** FrankWolfeSSVM, block-coordinate or batch *)
Theorem C81_frank_wolfe (bm : bmodel X Y) (bm' : bmodel X' Y') prm S S' sched old old' : isometry n n' V ->
  similar_models V L n n' bm bm' -> Forall2 (similar V L (bm_s bm) (bm_s bm')) S S' -> S <> [] ->
  match old, old' with Some (w, l), Some (w', l') => V w w' /\ l = l' | None, None => True | _, _ => False end ->
  rel_res (similar_fwr V) (fw_fit prm bm (map fst S) (map snd S) sched old) (fw_fit prm bm' (map fst S') (map snd S') sched old').
Proof. intros HV HB. exact (sim_fw_fit n n' V L HV bm bm' HB prm S S' sched old old'). Qed.
(** NSlackSSVM: with the same QP solver, corresponding weights and working sets, the same curves and the same reason to stop *)
Theorem C81_n_slack (m : smodel X Y) (m' : smodel X' Y') yeq yeq' solve prm prm' sw sw' cs cs' old S S' : isometry n n' V ->
  similar_nparams V n n' prm prm' -> similar_eq L S S' yeq yeq' -> similar_samples V L n n' m m' S S' ->
  similar_switch V L n n' sw sw' S S' ->
  match cs, cs' with Some c, Some c' => each (similar_ncons V L) S S' c c' | None, None => True | _, _ => False end ->
  rel_res (fun q q' => similar_ns V L S S' (fst (fst (fst q))) (fst (fst (fst q'))) /\ snd (fst (fst q)) = snd (fst (fst q')) /\
                       snd (fst q) = snd (fst q') /\ snd q = snd q')
    (ns_fit yeq solve prm m sw (map fst S) (map snd S) cs old) (ns_fit yeq' solve prm' m' sw' (map fst S') (map snd S') cs' old).
Proof. intros HV HP HQ. exact (sim_ns_fit n n' V L HV S S' prm prm' HP yeq yeq' HQ solve m m' sw sw' cs cs' old). Qed.
(** OneSlackSSVM: likewise, with the inference cache and warm starts *)
Theorem C81_one_slack (bm : bmodel X Y) (bm' : bmodel X' Y') ceq ceq' solve prm prm' sw sw' ws ws' S S' : isometry n n' V ->
  similar_oparams V n n' prm prm' -> S <> [] -> similar_eq L S S' ceq ceq' -> similar_models V L n n' bm bm' ->
  Forall2 (similar V L (bm_s bm) (bm_s bm')) S S' -> similar_bswitch V L n n' sw sw' S S' -> similar_warm V L S S' ws ws' ->
  rel_res (fun q q' => similar_os V L S S' (fst q) (fst q') /\ snd q = snd q')
    (os_fit ceq solve prm bm sw (map fst S) (map snd S) ws) (os_fit ceq' solve prm' bm' sw' (map fst S') (map snd S') ws').
Proof. intros HV HP HN HQ. exact (sim_os_fit n n' V L HV S S' prm prm' HP HN ceq ceq' HQ solve bm bm' sw sw' ws ws'). Qed.
(** the default batch methods of two models that agree sample by sample agree too *)
Theorem C81_default_batches (m : smodel X Y) (m' : smodel X' Y') : isometry n n' V -> similar_sizes n n' m m' ->
  similar_models V L n n' (base_bmodel m) (base_bmodel m').
Proof. intro HV. exact (base_similar n n' V L HV m m'). Qed.
End Learners.

(** ** A CRF with one node is a multiclass SVM *)
Theorem C81_padding_isometry n n' : (n <= n')%nat -> isometry n n' (padded n n').
Proof. exact (padded_isometry n n'). Qed.
(** MultiClassClf with its own batch methods, and GraphCRF (directed or not) on graphs of one node: joint features and weights differ
    by zeros for the pairwise weights; labels, losses, inference and loss-augmented inference are the same, ties included. *)
Theorem C81_one_node k F directed cw uniform solve : (0 < k)%nat -> length cw = k ->
  (uniform = true -> forall s, (s < k)%nat -> get1 cw s = 1) -> first_best_node k solve ->
  let g := GraphCRF k F directed in let m := MC k F cw uniform false in
  similar_models (padded (k * F) (g_size g)) (node_label k F) (k * F) (g_size g) (mc_bmodel m) (base_bmodel (g_smodel solve g cw)) /\
  isometry (k * F) (g_size g) (padded (k * F) (g_size g)) /\
  forall S, Forall (fun p => length (fst p) = F /\ (snd p < k)%nat) S ->
    similar_samples (padded (k * F) (g_size g)) (node_label k F) (k * F) (g_size g) (mc_smodel m) (g_smodel solve g cw)
      S (map (fun p => (node_x (fst p), node_y (snd p))) S).
Proof.
  intros Hk Hc Hu Hs. split; [exact (node_models k F directed cw uniform solve Hk Hc Hu)|]. split; [exact (node_isometry k F directed cw Hk Hc)|].
  exact (node_samples k F directed cw uniform solve Hk Hc Hs).
Qed.
(** The solvers concerned: 'unary', as in the example, and 'max-product'. *)
Theorem C81_one_node_solvers b k : first_best_node k (dispatch_solver b "unary") /\ first_best_node k (dispatch_solver b "max-product").
Proof. exact (conj (first_best_unary b k) (first_best_max_product b k)). Qed.
(** A prediction with padded weights is the class that MultiClassClf predicts. *)
Theorem C81_one_node_predict k F directed cw uniform solve x w : (0 < k)%nat -> length cw = k -> first_best_node k solve ->
  length x = F -> length w = (k * F)%nat ->
  let g := GraphCRF k F directed in let m := MC k F cw uniform false in
  exists s, (s < k)%nat /\ mc_inference m x w = Ok s /\
    g_inference solve g (node_x x) (w ++ vzero (g_size g - k * F)) = Ok (node_y s).
Proof. intros Hk Hc Hs. exact (node_predict k F directed cw uniform solve Hk Hc Hs x w). Qed.
(** The fits, starting anew, for samples of the right size; comparing labels is comparing classes. *)
Theorem C81_one_node_n_slack k F directed cw uniform solve S yeq qps prm : (0 < k)%nat -> length cw = k -> first_best_node k solve ->
  Forall (fun p => length (fst p) = F /\ (snd p < k)%nat) S -> ns_neg prm = None ->
  (forall a b, yeq (node_y a) (node_y b) = Nat.eqb a b) ->
  let g := GraphCRF k F directed in let m := MC k F cw uniform false in
  rel_res (fun q q' => padded (k * F) (g_size g) (st_w (fst (fst (fst q)))) (st_w (fst (fst (fst q')))) /\
                       snd (fst (fst q)) = snd (fst (fst q')) /\ snd (fst q) = snd (fst q') /\ snd q = snd q')
    (ns_fit Nat.eqb qps prm (mc_smodel m) None (map fst S) (map snd S) None None)
    (ns_fit yeq qps prm (g_smodel solve g cw) None (map node_x (map fst S)) (map node_y (map snd S)) None None).
Proof. intros Hk Hc Hs HS. exact (node_ns k F directed cw uniform solve Hk Hc Hs S HS yeq qps prm). Qed.
Theorem C81_one_node_one_slack k F directed cw uniform solve S ceq qps prm : (0 < k)%nat -> length cw = k ->
  (uniform = true -> forall s, (s < k)%nat -> get1 cw s = 1) -> first_best_node k solve ->
  Forall (fun p => length (fst p) = F /\ (snd p < k)%nat) S -> S <> [] -> o_neg prm = None ->
  (forall a b, ceq (node_y a) (node_y b) = Ok (Nat.eqb a b)) ->
  let g := GraphCRF k F directed in let m := MC k F cw uniform false in
  rel_res (fun q q' => padded (k * F) (g_size g) (o_w (fst q)) (o_w (fst q')) /\ o_curve (fst q) = o_curve (fst q') /\
                       o_primal (fst q) = o_primal (fst q') /\ snd q = snd q')
    (os_fit (fun a b => Ok (Nat.eqb a b)) qps prm (mc_bmodel m) None (map fst S) (map snd S) Cold)
    (os_fit ceq qps prm (base_bmodel (g_smodel solve g cw)) None (map node_x (map fst S)) (map node_y (map snd S)) Cold).
Proof. intros Hk Hc Hu Hs HS. exact (node_os k F directed cw uniform solve Hk Hc Hu Hs S HS ceq qps prm). Qed.
Theorem C81_one_node_perceptron k F directed cw uniform solve S prm mloss old : (0 < k)%nat -> length cw = k -> first_best_node k solve ->
  Forall (fun p => length (fst p) = F /\ (snd p < k)%nat) S ->
  let g := GraphCRF k F directed in let m := MC k F cw uniform false in
  let q := pc_fit prm (mc_smodel m) (fun y => mloss (node_y y)) old S in
  let q' := pc_fit prm (g_smodel solve g cw) mloss old (map (fun p => (node_x (fst p), node_y (snd p))) S) in
  padded (k * F) (g_size g) (pl_w (fst q)) (pl_w (fst q')) /\ pl_curve (fst q) = pl_curve (fst q') /\
  pl_avg (fst q) = pl_avg (fst q') /\ snd q = snd q'.
Proof. intros Hk Hc Hs HS. exact (node_pc k F directed cw uniform solve Hk Hc Hs S HS prm mloss old). Qed.
Theorem C81_one_node_frank_wolfe k F directed cw uniform solve S prm sched : (0 < k)%nat -> length cw = k ->
  (uniform = true -> forall s, (s < k)%nat -> get1 cw s = 1) -> first_best_node k solve ->
  Forall (fun p => length (fst p) = F /\ (snd p < k)%nat) S -> S <> [] ->
  let g := GraphCRF k F directed in let m := MC k F cw uniform false in
  rel_res (similar_fwr (padded (k * F) (g_size g)))
    (fw_fit prm (mc_bmodel m) (map fst S) (map snd S) sched None)
    (fw_fit prm (base_bmodel (g_smodel solve g cw)) (map node_x (map fst S)) (map node_y (map snd S)) sched None).
Proof. intros Hk Hc Hu Hs HS. exact (node_fw k F directed cw uniform solve Hk Hc Hu Hs S HS prm sched). Qed.
Theorem C81_one_node_subgradient k F directed cw uniform solve S prm shuf shuf' : (0 < k)%nat -> length cw = k ->
  (uniform = true -> forall s, (s < k)%nat -> get1 cw s = 1) -> first_best_node k solve ->
  Forall (fun p => length (fst p) = F /\ (snd p < k)%nat) S -> S <> [] ->
  (forall it B, Permutation (shuf it B) B) ->
  (forall it B, shuf' it (map (fun p => (node_x (fst p), node_y (snd p))) B) = map (fun p => (node_x (fst p), node_y (snd p))) (shuf it B)) ->
  let g := GraphCRF k F directed in let m := MC k F cw uniform false in
  rel_res (similar_sgl (padded (k * F) (g_size g)))
    (sg_fit prm (mc_bmodel m) shuf false S sg_new)
    (sg_fit prm (base_bmodel (g_smodel solve g cw)) shuf' false (map (fun p => (node_x (fst p), node_y (snd p))) S) sg_new).
Proof. intros Hk Hc Hu Hs HS. exact (node_sg k F directed cw uniform solve Hk Hc Hu Hs S HS prm shuf shuf'). Qed.
(** Outside of that: MultiClassClf takes an input with a single number for every number of features, GraphCRF refuses it. *)
Theorem C81_one_node_broadcast_refuted k F cw uniform solve directed x y : (y < k)%nat -> (2 <= F)%nat -> length x = 1%nat ->
  (exists v, mc_joint_feature (MC k F cw uniform false) x y None = Ok v) /\
  sm_joint (g_smodel solve (GraphCRF k F directed) cw) (node_x x) (node_y y) None = Err ValueError.
Proof. exact (node_broadcast k F cw uniform solve directed x y). Qed.

(** ** The order of the node features *)
(** For every solver: the potentials are the same, and the joint features are reordered like the weights. *)
Theorem C81_feature_order g p solve cw : permutes (g_features g) p ->
  isometry (g_size g) (g_size g) (reordered_weights g p) /\
  similar_models (reordered_weights g p) (reordered_label g p) (g_size g) (g_size g)
    (base_bmodel (g_smodel solve g cw)) (base_bmodel (g_smodel solve g cw)) /\
  forall S, Forall (fun q => mcols (gx_features (fst q)) = g_features g) S ->
    similar_samples (reordered_weights g p) (reordered_label g p) (g_size g) (g_size g) (g_smodel solve g cw) (g_smodel solve g cw)
      S (map (fun q => (reorder_x p (fst q), snd q)) S).
Proof.
  intro HP. split; [exact (order_isometry g p HP)|]. split; [exact (order_models g p solve cw HP)|exact (order_samples g p solve cw HP)].
Qed.
Theorem C81_feature_order_potentials g p x w w' : permutes (g_features g) p -> mcols (gx_features x) = g_features g ->
  reordered_weights g p w w' -> g_potentials g (reorder_x p x) w' = g_potentials g x w.
Proof. intro HP. exact (order_potentials g p HP x w w'). Qed.
(** so, for example, OneSlackSSVM finds the reordered weights *)
Theorem C81_feature_order_one_slack g p solve cw ceq qps prm S : permutes (g_features g) p ->
  Forall (fun q => mcols (gx_features (fst q)) = g_features g) S -> S <> [] -> o_neg prm = None ->
  rel_res (fun q q' => reordered_weights g p (o_w (fst q)) (o_w (fst q')) /\ o_curve (fst q) = o_curve (fst q') /\
                       o_primal (fst q) = o_primal (fst q') /\ snd q = snd q')
    (os_fit ceq qps prm (base_bmodel (g_smodel solve g cw)) None (map fst S) (map snd S) Cold)
    (os_fit ceq qps prm (base_bmodel (g_smodel solve g cw)) None (map (fun q => reorder_x p (fst q)) S) (map snd S) Cold).
Proof. exact (order_os g p solve cw ceq qps prm S). Qed.

(** ** Runs *)
Definition ex42_b : backends := Backends (fun _ => Err NonFinite) None (fun z => z) None None.
Definition ex42_g : graph_crf := GraphCRF 3 2 false.
Definition ex42_m : mc_clf := MC 3 2 [1; 1; 1 + 1] false false.
Definition ex42_S : list (list Qc * nat) :=
  [(map ofZ [1; 2]%Z, 2); (map ofZ [-1; 1]%Z, 0); (map ofZ [2; -1]%Z, 1); (map ofZ [0; 3]%Z, 2)]%nat.
Definition ex42_pc : pc_params := PCParams 3 false 0 1 NoAverage.
(** the hypotheses, and a perceptron run: 6 weights, and the same followed by 6 zeros *)
Example C81_one_node_met : (0 < 3)%nat /\ length (mc_cw ex42_m) = 3%nat /\ first_best_node 3 (dispatch_solver ex42_b "unary") /\
  Forall (fun p => length (fst p) = 2%nat /\ (snd p < 3)%nat) ex42_S /\ ex42_S <> [].
Proof. split; [lia|]. split; [reflexivity|]. split; [exact (first_best_unary ex42_b 3)|]. split; [repeat constructor|discriminate]. Qed.
Example C81_perceptron_computed :
  match pc_fit ex42_pc (mc_smodel ex42_m) (fun y => Ok 1) None ex42_S,
        pc_fit ex42_pc (g_smodel (dispatch_solver ex42_b "unary") ex42_g [1; 1; 1 + 1]) (fun y => Ok (ofN (length y))) None
          (map (fun p => (node_x (fst p), node_y (snd p))) ex42_S) with
  | (l, None), (l', None) =>
      map this (pl_w l) = [-3; 0; 2; -1; 1; 1]%Q /\ map this (pl_w l') = [-3; 0; 2; -1; 1; 1; 0; 0; 0; 0; 0; 0]%Q /\
      option_map (map (option_map this)) (pl_curve l) = Some [Some 1; Some (1#4); Some 0]%Q /\
      option_map (map (option_map this)) (pl_curve l') = Some [Some 1; Some (1#4); Some 0]%Q
  | _, _ => False
  end.
Proof. vm_compute. repeat split. Qed.
(** OneSlackSSVM on the data of C24 *)
Definition ex42_ceq (a b : list nat) : res bool := match a, b with [s], [t] => Ok (s =? t)%nat | _, _ => Err ValueError end.
Example C81_one_slack_computed :
  match os_fit ex42_ceq ex10_solver (ex10_prm 5 2) (base_bmodel (g_smodel (dispatch_solver ex42_b "unary") (GraphCRF 2 1 true) [1; 1])) None
          (map node_x ex9_X) (map node_y ex9_Y) Cold with
  | Ok (st, OSNoConstraint) => map this (o_w st) = [1#2; (-1)#2; 0; 0; 0; 0]%Q /\ map this (o_curve st) = [1#4; 1#4]%Q
  | _ => False
  end.
Proof. vm_compute. auto. Qed.
(** two nodes and an edge with the features exchanged *)
Definition ex42_x : graph_x := GraphX (Mat 2 2 [map ofZ [1; -2]%Z; map ofZ [0; 3]%Z]) [(0, 1)]%nat.
Example C81_feature_order_met : permutes 2 [1; 0]%nat /\ mcols (gx_features ex42_x) = g_features ex42_g /\
  reordered_weights (GraphCRF 2 2 true) [1; 0]%nat (map ofZ [1; 2; 3; 4; 5; 6; 7; 8]%Z) (map ofZ [2; 1; 4; 3; 5; 6; 7; 8]%Z).
Proof.
  split; [split; [reflexivity|]; split; intros; repeat (destruct t as [|t]; try lia); repeat (try destruct s as [|s]; try lia); cbn in *; lia|].
  split; [reflexivity|]. split; [reflexivity|]. split; [reflexivity|]. split.
  - intros s j Hs Hj. cbn in Hs, Hj. destruct s as [|[|s]]; [| |lia]; (destruct j as [|[|j]]; [reflexivity|reflexivity|lia]).
  - intros i Hi. cbn in Hi. do 8 (destruct i as [|i]; [lia || reflexivity|]). destruct i; reflexivity.
Qed.
Example C81_feature_order_computed :
  match g_joint_feature ex42_g ex42_x (Discrete [0; 2]%nat), g_joint_feature ex42_g (reorder_x [1; 0]%nat ex42_x) (Discrete [0; 2]%nat) with
  | Ok v, Ok v' => map this v = [1; -2; 0; 0; 0; 3; 0; 0; 0; 1; 0; 0]%Q /\ map this v' = [-2; 1; 0; 0; 3; 0; 0; 0; 0; 1; 0; 0]%Q
  | _, _ => False
  end.
Proof. vm_compute. auto. Qed.

Print Assumptions C81_perceptron.
Print Assumptions C81_subgradient.
Print Assumptions C81_frank_wolfe.
Print Assumptions C81_n_slack.
Print Assumptions C81_one_slack.
Print Assumptions C81_default_batches.
Print Assumptions C81_padding_isometry.
Print Assumptions C81_one_node.
Print Assumptions C81_one_node_solvers.
Print Assumptions C81_one_node_predict.
Print Assumptions C81_one_node_n_slack.
Print Assumptions C81_one_node_one_slack.
Print Assumptions C81_one_node_perceptron.
Print Assumptions C81_one_node_frank_wolfe.
Print Assumptions C81_one_node_subgradient.
Print Assumptions C81_one_node_broadcast_refuted.
Print Assumptions C81_feature_order.
Print Assumptions C81_feature_order_potentials.
Print Assumptions C81_feature_order_one_slack.

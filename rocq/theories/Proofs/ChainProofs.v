From Verif Require Import Model.ChainCRF Spec.Energy Spec.SolverSpec Spec.GraphTheory
  Proofs.Arrays Proofs.EnergyProofs Proofs.GraphCRFProofs Proofs.LossProofs Proofs.CRFProofs Proofs.ViterbiProofs
  Proofs.SearchProofs Proofs.MaxProdProofs.

Lemma combine_shift s n : combine (seq s n) (seq (S s) n) = map (fun i => (i, S i)) (seq s n).
Proof. revert s. induction n; intro s; simpl; [reflexivity|]. f_equal. apply IHn. Qed.
Lemma removelast_seq s n : removelast (seq s n) = seq s (n - 1).
Proof.
  destruct n; [reflexivity|]. replace (S n - 1)%nat with n by lia. rewrite seq_S. apply removelast_last.
Qed.
Lemma make_chain_edges_chain n : make_chain_edges n = chain_edges n.
Proof.
  unfold make_chain_edges, chain_edges. rewrite removelast_seq. destruct n; [reflexivity|].
  replace (S n - 1)%nat with n by lia. simpl tl. apply combine_shift.
Qed.

Lemma max_product_exact_on_chain n : (0 < n)%nat -> exact_solver_on max_product_solver n (chain_edges n).
Proof.
  intros Hn U m k HU Hm Hr Hc Hmr Hmc Hk.
  exact (max_product_chain n k U (Pw2 m) 30 (Q2Qc (1 # 2)) default_tol HU Hr Hc Hn Hk (conj Hmr Hmc)).
Qed.

Lemma chain_valid g x : mat_ok x -> mcols x = g_features g -> valid_x g (chain_x x).
Proof.
  intros H1 H2. constructor; simpl; auto. rewrite make_chain_edges_chain. apply chain_edges_ok.
Qed.

Lemma chain_inference_exact g x w :
  mat_ok x -> mcols x = g_features g -> (0 < mrows x)%nat -> (0 < g_states g)%nat -> length w = g_size g ->
  exists y psi, chain_inference g x w = Ok y /\ labelling (mrows x) (g_states g) y /\
    g_joint_feature g (chain_x x) (Discrete y) = Ok psi /\
    forall y' psi', labelling (mrows x) (g_states g) y' ->
      g_joint_feature g (chain_x x) (Discrete y') = Ok psi' -> dot w psi' <= dot w psi.
Proof.
  intros H1 H2 Hn Hk Hw. refine (g_inference_exact max_product_solver g (chain_x x) w _ (chain_valid g x H1 H2) Hw Hk).
  simpl. rewrite make_chain_edges_chain. apply max_product_exact_on_chain, Hn.
Qed.
Lemma chain_loss_augmented_exact g cw x y w :
  mat_ok x -> mcols x = g_features g -> (0 < mrows x)%nat -> (0 < g_states g)%nat -> length w = g_size g ->
  length cw = g_states g -> labelling (mrows x) (g_states g) y ->
  exists yh psi l, chain_loss_augmented_inference g cw x y w = Ok yh /\ labelling (mrows x) (g_states g) yh /\
    g_joint_feature g (chain_x x) (Discrete yh) = Ok psi /\ loss (Some cw) y yh = Ok l /\
    forall y' psi' l', labelling (mrows x) (g_states g) y' ->
      g_joint_feature g (chain_x x) (Discrete y') = Ok psi' -> loss (Some cw) y y' = Ok l' ->
      dot w psi' + l' <= dot w psi + l.
Proof.
  intros H1 H2 Hn Hk Hw Hcw Hy.
  refine (g_loss_augmented_exact max_product_solver g cw (chain_x x) y w _ (chain_valid g x H1 H2) Hw Hk Hcw Hy).
  simpl. rewrite make_chain_edges_chain. apply max_product_exact_on_chain, Hn.
Qed.

(** ** what the broadcasting in is_chain lets through *)
Lemma max_product_no_edges n k U p max_iter damping tol :
  mat_ok U -> mrows U = n -> mcols U = k -> (0 < k)%nat -> pw_shape p 0 k ->
  (n = 1%nat -> exists y, inference_max_product U p [] max_iter damping tol = Ok y /\ maximiser n k [] (mget U) (pw_table p) y) /\
  (n = 0%nat \/ n = 2%nat -> inference_max_product U p [] max_iter damping tol = Err OutOfBounds) /\
  ((3 <= n)%nat -> inference_max_product U p [] max_iter damping tol = Err ValueError).
Proof.
  intros HU Hr Hc Hk Hp. split; [|split].
  - intros ->. exact (max_product_chain 1 k U p max_iter damping tol HU Hr Hc Nat.lt_0_1 Hk Hp).
  - intros [->| ->]; unfold inference_max_product;
      destruct (validate_ok U p [] k Hc) as [pws [E [HL _]]]; [destruct p; exact Hp| |destruct p; exact Hp|].
    { rewrite E. cbn [bind snd]. rewrite Hr. change (is_chain [] 0) with true. cbn iota. destruct HU as [HL0 _]. rewrite Hr in HL0.
      unfold viterbi. destruct (mdat U); [reflexivity|discriminate]. }
    rewrite E. cbn [bind snd]. rewrite Hr. change (is_chain [] 2) with true. cbn iota.
    destruct pws; [|discriminate HL]. destruct HU as [HL0 _]. rewrite Hr in HL0.
    unfold viterbi. destruct (mdat U) as [|r0 [|r1 rest]]; try discriminate. simpl. rewrite Hc.
    destruct (Nat.eqb_spec k 0); [lia|reflexivity].
  - intros Hn. unfold inference_max_product.
    destruct (validate_ok U p [] k Hc) as [pws [E [HL _]]]; [destruct p; exact Hp|].
    rewrite E. cbn [bind snd]. rewrite Hr. destruct n as [|[|[|n]]]; try lia. reflexivity.
Qed.

(** two parallel edges (0,1): the second table is ignored *)
Definition par_U : mat := Mat 2 2 [[0; 0]; [0; 0]].
Definition par_P : pairwise := Pw3 2 2 2 [[[1; 0]; [0; 0]]; [[0; 0]; [0; ofZ 2]]].
Lemma parallel_edges_refuted :
  exists U p edges y, mat_ok U /\ pw_shape p (length edges) 2 /\ graph_edges (mrows U) edges /\ mcols U = 2%nat /\
    inference_max_product U p edges 30 (Q2Qc (1 # 2)) default_tol = Ok y /\
    exists y', labelling (mrows U) 2 y' /\
      score (mrows U) edges (mget U) (pw_table p) (lab y) < score (mrows U) edges (mget U) (pw_table p) (lab y').
Proof.
  exists par_U, par_P, [(0, 1); (0, 1)]%nat, [0; 0]%nat.
  split; [apply mat_okb_ok; reflexivity|]. split; [repeat split|]. split; [repeat constructor|].
  split; [reflexivity|]. split; [vm_compute; reflexivity|]. exists [1; 1]%nat. split; [repeat constructor|].
  vm_compute. reflexivity.
Qed.

(** ties on a tree *)
Definition star_U : mat := Mat 3 2 [[0; 0]; [0; 0]; [0; 0]].
Definition star_P : pairwise := Pw2 (Mat 2 2 [[0; 1]; [1; 0]]).
Lemma tree_ties_refuted :
  exists U p edges y, mat_ok U /\ pw_shape p (length edges) 2 /\ graph_edges (mrows U) edges /\ mcols U = 2%nat /\
    acyclic edges /\ inference_max_product U p edges 30 (Q2Qc (1 # 2)) default_tol = Ok y /\
    exists y', labelling (mrows U) 2 y' /\
      score (mrows U) edges (mget U) (pw_table p) (lab y) < score (mrows U) edges (mget U) (pw_table p) (lab y').
Proof.
  exists star_U, star_P, [(0, 1); (0, 2)]%nat, [0; 0; 0]%nat.
  split; [apply mat_okb_ok; reflexivity|]. split; [repeat split|]. split; [repeat constructor|].
  split; [reflexivity|]. split.
  { destruct (is_forest_correct [(0, 1); (0, 2)]%nat None) as [b [E H]]; [discriminate|exact I|].
    apply H. vm_compute in E. congruence. }
  split; [vm_compute; reflexivity|]. exists [0; 1; 1]%nat. split; [repeat constructor|].
  vm_compute. reflexivity.
Qed.

Lemma is_forest_empty nv : match nv with Some n => (0 < n)%nat | None => True end -> is_forest [] nv = Err ValueError.
Proof. destruct nv as [[|n]|]; intro H; try reflexivity. lia. Qed.

Lemma tree_unique_map n k U pws edges ys :
  mrows U = n -> mcols U = k -> (0 < k)%nat -> graph_edges n edges -> acyclic edges ->
  maximiser n k edges (mget U) (fun e => get2 (nth e pws [])) ys ->
  (forall z, maximiser n k edges (mget U) (fun e => get2 (nth e pws [])) z -> z = ys) ->
  tree_max_product U pws edges = Ok ys.
Proof.
  intros Hr Hc Hk Hg AC Hm Hu.
  destruct (tree_max_product_ok n k U pws edges Hr Hc Hk Hg AC) as [y [Ey [Hl Hv]]].
  rewrite Ey. f_equal. eapply unique_from_marginals; eauto.
Qed.

Lemma loopy_ok U pws edges n k max_iter damping tol :
  mrows U = n -> mcols U = k -> (0 < k)%nat -> graph_edges n edges ->
  exists st y,
    loopy_iter max_iter k U damping tol edges pws
      (Loopy (fun _ => vzero k) (fun _ => vzero k) (fun _ => vzero k) 0) = Ok st /\
    (forall v s, (s < k)%nat -> get1 (lp_in st v) s = edge_terms edges (lp_fwd st) (lp_bwd st) v s) /\
    iterative_max_product U pws edges max_iter damping tol = Ok y /\ labelling n k y /\
    forall v s, (v < n)%nat -> (s < k)%nat ->
      edge_terms edges (lp_fwd st) (lp_bwd st) v s + mget U v s <=
      edge_terms edges (lp_fwd st) (lp_bwd st) v (lab y v) + mget U v (lab y v).
Proof.
  intros Hr Hc Hk Hg. destruct (iterative_ok U pws edges n k max_iter damping tol Hr Hc Hk Hg) as [st [y [E [I H]]]].
  exists st, y. split; [exact E|]. split; [exact (lv_sum _ _ _ I)|exact H].
Qed.

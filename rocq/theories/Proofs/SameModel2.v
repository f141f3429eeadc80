From Coq Require Import ZArith String Lia.
From Verif Require Import Proofs.Arrays Spec.SameModelSpec Spec.SingleTypeSpec Spec.AlikeSpec Spec.Energy Spec.GraphSpec Model.Inference Model.MoreInstances Proofs.SymProofs Proofs.GraphCRFProofs
  Proofs.EdgeFeatureProofs Proofs.EdgeFeatureProofs2 Proofs.GridProofs Proofs.GridProofs2 Proofs.InferenceProofs Proofs.SingleType2 Proofs.SameModel.
#[local] Open Scope nat_scope.

(** ** undirected models *)
Section Undirected.
Variables k f : nat.
Notation gu := (GraphCRF k f false).
Notation gd := (GraphCRF k f true).
Variables w w' : list Qc.
Hypothesis HL : length w = g_size gu.
Hypothesis HW : written_out k f w w'.
Lemma unary_written x : g_unary gd x w' = g_unary gu x w.
Proof.
  destruct HW as (L & A & _). unfold g_unary. rewrite (check_size_w_ok (g_size gd) w' L), (check_size_w_ok _ w HL). cbn [bind g_states g_features].
  change (g_check_x gd x) with (g_check_x gu x). destruct (g_check_x gu x) as [[]|]; [|reflexivity]. cbn [bind].
  assert (firstn (k * f) w' = firstn (k * f) w) as ->; [|reflexivity].
  assert (L' : k * f <= length w) by (rewrite HL; unfold g_size; cbn; lia).
  apply vec_ext; [rewrite !firstn_length, L; lia|]. intros i Hi. rewrite firstn_length in Hi. rewrite !get1_firstn by lia. apply A. lia.
Qed.
Lemma pairwise_written x : g_pairwise gd x w' = g_pairwise gu x w.
Proof.
  destruct HW as (L & _ & B). unfold g_pairwise. rewrite (check_size_w_ok (g_size gd) w' L), (check_size_w_ok _ w HL). cbn [bind g_states g_features g_directed].
  change (g_check_x gd x) with (g_check_x gu x). destruct (g_check_x gu x) as [[]|]; [|reflexivity]. cbn [bind].
  rewrite reshape_ok by (rewrite skipn_length, L; lia).
  destruct (expand_sym_ok k (skipn (k * f) w)) as [m [E [O [R [C G]]]]].
  { rewrite skipn_length, HL. unfold g_size, trinum. cbn. lia. }
  rewrite E. f_equal. symmetry. apply mat_eq_ext; [exact O|apply mtab_ok|exact R|exact C|]. intros s t Hs Ht. rewrite R in Hs. rewrite C in Ht.
  rewrite mget_mtab by assumption. rewrite G by assumption. rewrite get1_skipn. unfold sym_entry. rewrite !get1_skipn.
  destruct (Nat.leb_spec t s) as [Q|Q].
  - symmetry. apply (B s t Hs Q).
  - assert (Q' : s <= t) by lia. symmetry. apply (B t s Ht Q').
Qed.
Lemma potentials_written x : g_potentials gd x w' = g_potentials gu x w.
Proof.
  unfold g_potentials. rewrite unary_written, pairwise_written. destruct HW as (L & _). rewrite (check_size_w_ok (g_size gd) w' L), (check_size_w_ok _ w HL). reflexivity.
Qed.
Lemma inference_written solve x : g_inference solve gd x w' = g_inference solve gu x w.
Proof. unfold g_inference. rewrite potentials_written. reflexivity. Qed.
Lemma laug_written solve cw x y : g_loss_augmented_inference solve gd cw x y w' = g_loss_augmented_inference solve gu cw x y w.
Proof. unfold g_loss_augmented_inference. rewrite potentials_written. reflexivity. Qed.
Lemma score_written x y : mat_ok (gx_features x) -> mcols (gx_features x) = f -> graph_edges (mrows (gx_features x)) (gx_edges x) ->
  labelling (mrows (gx_features x)) k y ->
  exists psi psi', g_joint_feature gu x (Discrete y) = Ok psi /\ g_joint_feature gd x (Discrete y) = Ok psi' /\ dot w' psi' = dot w psi.
Proof.
  intros O C G Y. destruct (graphcrf_score_linear gu x w y O C G HL Y) as (U & P & psi & EU & EP & EJ & _ & EE & _).
  destruct (graphcrf_score_linear gd x w' y O C G (proj1 HW) Y) as (U' & P' & psi' & EU' & EP' & EJ' & _ & EE' & _).
  exists psi, psi'. split; [exact EJ|]. split; [exact EJ'|]. rewrite unary_written in EU'. rewrite pairwise_written in EP'. congruence.
Qed.
End Undirected.
(** writing out is always possible *)
Lemma written_out_exists k f w : length w = g_size (GraphCRF k f false) -> exists w', written_out k f w w'.
Proof.
  intro HL. destruct (expand_sym_ok k (skipn (k * f) w)) as [m [E [O [R [C G]]]]].
  { rewrite skipn_length, HL. unfold g_size, trinum. cbn. lia. }
  assert (L1 : length (firstn (k * f) w) = k * f) by (rewrite firstn_length, HL; unfold g_size; cbn; lia).
  exists (firstn (k * f) w ++ ravel m). split; [|split].
  - rewrite app_length, L1, ravel_ok_length, R, C by exact O. reflexivity.
  - intros i Hi. unfold get1. rewrite app_nth1 by lia. fold (get1 (firstn (k * f) w) i). apply get1_firstn. exact Hi.
  - intros s t Hs Ht. unfold get1 at 1 3. rewrite !app_nth2 by lia. rewrite L1. replace (k * f + (s * k + t) - k * f) with (s * k + t) by lia.
    replace (k * f + (t * k + s) - k * f) with (t * k + s) by lia. rewrite (ravel_get k k m O R C).
    fold (get1 (concat (tab2 k k (mget m))) (s * k + t)). fold (get1 (concat (tab2 k k (mget m))) (t * k + s)).
    assert (t < k) by lia. rewrite !get1_concat_tab2 by assumption. rewrite !G by assumption. unfold sym_entry. rewrite !get1_skipn.
    replace (t <=? s) with true by (symmetry; apply Nat.leb_le; exact Ht). split; [reflexivity|].
    destruct (Nat.leb_spec s t); [assert (s = t) as -> by lia; reflexivity|reflexivity].
Qed.

(** ** pictures *)
Lemma mapM_all {A B} (f : A -> res B) (Q : B -> Prop) l r : (forall a b, f a = Ok b -> Q b) -> mapM f l = Ok r -> Forall Q r.
Proof.
  intro H. revert r. induction l as [|a l IH]; intros r E; [injection E as <-; constructor|]. cbn [mapM] in E. destruct (f a) as [b|] eqn:EA; [|discriminate].
  cbn [bind] in E. destruct (mapM f l) as [bs|]; [|discriminate]. cbn [bind] in E. injection E as <-. constructor; [apply (H a b EA)|apply IH; reflexivity].
Qed.
Lemma laug_ok (U : mat) y cw U' : loss_augment_unaries U y cw = Ok U' -> mat_ok U'.
Proof.
  unfold loss_augment_unaries. destruct (mapM _ (seq 0 (mrows U))) as [r|] eqn:E; [|discriminate]. cbn [bind]. intro H. injection H as <-. split; cbn [mdat mrows mcols].
  - rewrite (LossProofs.mapM_length _ _ _ E), seq_length. reflexivity.
  - refine (mapM_all _ _ _ _ _ E). intros i b Hb. rewrite (LossProofs.mapM_length _ _ _ Hb), seq_length. reflexivity.
Qed.
Lemma mat_mul_is_ok A B M : mat_mul A B = Ok M -> mat_ok M.
Proof. unfold mat_mul. destruct (_ =? _); [|discriminate]. intro H. injection H as <-. apply mtab_ok. Qed.
Lemma g_unary_is_ok g x w U : g_unary g x w = Ok U -> mat_ok U.
Proof.
  unfold g_unary. destruct (check_size_w _ w) as [[]|]; [|discriminate]. destruct (g_check_x g x) as [[]|]; [|discriminate]. cbn [bind].
  destruct (reshape _ _ _) as [B|]; [|discriminate]. cbn [bind]. apply mat_mul_is_ok.
Qed.
Lemma ef_unary_is_ok g x w U : ef_unary g x w = Ok U -> mat_ok U.
Proof.
  unfold ef_unary, ef_unary_core. destruct (check_size_w _ w) as [[]|]; [|discriminate]. destruct (ef_check_x g x) as [[]|]; [|discriminate]. cbn [bind].
  destruct (reshape _ _ _) as [B|]; [|discriminate]. cbn [bind]. apply mat_mul_is_ok.
Qed.
Lemma laug_rows (U : mat) y cw U' : loss_augment_unaries U y cw = Ok U' -> mrows U' = mrows U.
Proof. unfold loss_augment_unaries. destruct (mapM _ _) as [r|]; [|discriminate]. cbn [bind]. intro H. injection H as <-. reflexivity. Qed.
Lemma g_unary_rows g x w U : g_unary g x w = Ok U -> mrows U = mrows (gx_features x).
Proof.
  unfold g_unary. destruct (check_size_w _ w) as [[]|]; [|discriminate]. destruct (g_check_x g x) as [[]|]; [|discriminate]. cbn [bind].
  destruct (reshape _ _ _) as [B|]; [|discriminate]. cbn [bind]. intro H. apply (mat_mul_shape _ _ _ H).
Qed.
Lemma reshape_y_ok x y : length y = gr_h x * gr_w x -> reshape_y x y = Ok y.
Proof. intro H. unfold reshape_y. rewrite H, Nat.eqb_refl. reflexivity. Qed.
Section Pictures.
Variables (solve : solver) (g : grid_crf) (cw : list Qc).
Hypothesis HS : labels_nodes solve.
Lemma grid_rows x gx : grid_ok g x -> grid_graph g x = Ok gx -> mrows (gx_features gx) = gr_h x * gr_w x.
Proof.
  intros [L P] H. unfold grid_graph in H. rewrite (grid_features_ok x _ P L) in H. cbn [bind] in H.
  destruct (make_grid_edges _ _ _); [|discriminate]. cbn [bind] in H. injection H as <-. reflexivity.
Qed.
Lemma grid_inference_same x gx w : grid_ok g x -> grid_graph g x = Ok gx -> grid_inference solve g x w = g_inference solve (grid_gcrf g) gx w.
Proof.
  intros O H. unfold grid_inference. rewrite H. cbn [bind]. destruct (g_inference solve (grid_gcrf g) gx w) as [y|] eqn:E; [|reflexivity]. cbn [bind].
  apply reshape_y_ok. rewrite <- (grid_rows x gx O H). unfold g_inference, g_potentials in E. destruct (check_size_w _ w) as [[]|]; [|discriminate]. cbn [bind] in E.
  destruct (g_unary (grid_gcrf g) gx w) as [U|] eqn:EU; [|discriminate]. cbn [bind] in E. destruct (g_pairwise _ gx w) as [P|]; [|discriminate]. cbn [bind fst snd] in E.
  rewrite (HS _ _ _ _ (g_unary_is_ok _ _ _ _ EU) E). apply (g_unary_rows _ _ _ _ EU).
Qed.
Lemma grid_laug_same x gx y w : grid_ok g x -> grid_graph g x = Ok gx ->
  grid_loss_augmented_inference solve g cw x y w = g_loss_augmented_inference solve (grid_gcrf g) cw gx y w.
Proof.
  intros O H. unfold grid_loss_augmented_inference. rewrite H. cbn [bind]. destruct (g_loss_augmented_inference solve (grid_gcrf g) cw gx y w) as [z|] eqn:E; [|reflexivity]. cbn [bind].
  apply reshape_y_ok. rewrite <- (grid_rows x gx O H). unfold g_loss_augmented_inference, g_potentials in E. destruct (check_size_w _ w) as [[]|]; [|discriminate]. cbn [bind] in E.
  destruct (g_unary (grid_gcrf g) gx w) as [U|] eqn:EU; [|discriminate]. cbn [bind] in E. destruct (g_pairwise _ gx w) as [P|]; [|discriminate]. cbn [bind fst snd] in E.
  destruct (loss_augment_unaries U y cw) as [U'|] eqn:EL; [|discriminate]. cbn [bind] in E.
  rewrite (HS _ _ _ _ (laug_ok _ _ _ _ EL) E), (laug_rows _ _ _ _ EL). apply (g_unary_rows _ _ _ _ EU).
Qed.
Lemma grid_alike x gx y : grid_ok g x -> grid_graph g x = Ok gx ->
  alike (grid_smodel solve g cw) (g_smodel solve (grid_gcrf g) cw) (x, y) (gx, y).
Proof.
  intros O H. split; [reflexivity|]. exists (fun _ => True). cbn [fst snd]. split; [exact I|].
  split; [intros z zt _ _; cbn [sm_joint grid_smodel g_smodel]; unfold grid_joint_feature; rewrite H; reflexivity|].
  split; [intro w; apply (grid_inference_same x gx w O H)|]. split; [trivial|].
  split; [intros z w _; apply (grid_laug_same x gx z w O H)|]. split; [trivial|]. split; [reflexivity|]. intros; split; reflexivity.
Qed.

Hypothesis H4 : gr_neighborhood g = 4.
Lemma dir_graph_ok x ex : grid_ok g x -> dir_graph g x = Ok ex ->
  grid_features (gr_features g) x = Ok (ex_features ex) /\ make_grid_edges (gr_h x) (gr_w x) (gr_neighborhood g) = Ok (ex_edges ex) /\
  dir_edge_features g x = Ok (ex_edge_features ex) /\ mrows (ex_features ex) = gr_h x * gr_w x /\
  dir_check_x g (ex_features ex) = Ok tt /\ ef_check_x (dir_efcrf g) ex = Ok tt.
Proof.
  intros [L P] H. unfold dir_graph in H. rewrite (grid_features_ok x _ P L) in *. cbn [bind] in H.
  destruct (make_grid_edges _ _ _) as [e|] eqn:EE; [|discriminate]. cbn [bind] in H. destruct (dir_edge_features g x) as [ef|] eqn:EF; [|discriminate].
  cbn [bind] in H. injection H as <-. cbn [ex_features ex_edges ex_edge_features]. split; [reflexivity|]. split; [reflexivity|]. split; [reflexivity|].
  split; [reflexivity|]. split; [unfold dir_check_x; cbn [mcols mtab]; rewrite Nat.eqb_refl; reflexivity|].
  unfold ef_check_x. cbn [ex_features ex_edges ex_edge_features mcols mtab dir_efcrf ef_features ef_edge_features]. rewrite Nat.eqb_refl. cbn [ensure bind].
  unfold dir_edge_features in EF. unfold make_grid_edges in EE. rewrite H4 in *. destruct (make_grid_edge_lists (gr_h x) (gr_w x) 4) as [l|] eqn:EL; [|discriminate].
  cbn [bind] in EE, EF. injection EE as <-. rewrite (dir_edge_features_ok 4 _ _ _ EL) in EF. injection EF as <-. cbn [mrows mcols mtab]. rewrite !Nat.eqb_refl. reflexivity.
Qed.
Lemma dir_unary_same x ex w : grid_ok g x -> dir_graph g x = Ok ex -> dir_unary g x w = ef_unary (dir_efcrf g) ex w.
Proof.
  intros O H. destruct (dir_graph_ok x ex O H) as (A & B & C & D & E & F). unfold dir_unary, ef_unary. rewrite A, F. cbn [bind]. rewrite E. reflexivity.
Qed.
Lemma dir_pairwise_same x ex w : grid_ok g x -> dir_graph g x = Ok ex -> dir_pairwise g x w = ef_pairwise (dir_efcrf g) ex w.
Proof.
  intros O H. destruct (dir_graph_ok x ex O H) as (A & B & C & D & E & F). unfold dir_pairwise, ef_pairwise. rewrite A, F, C. cbn [bind]. rewrite E. reflexivity.
Qed.
Lemma dir_joint_same x ex y : grid_ok g x -> dir_graph g x = Ok ex -> dir_joint_feature g x y = ef_joint_feature (dir_efcrf g) ex y.
Proof.
  intros O H. destruct (dir_graph_ok x ex O H) as (A & B & C & D & E & F). unfold dir_joint_feature, ef_joint_feature. rewrite A, F, B, C. cbn [bind]. rewrite E. reflexivity.
Qed.
Lemma ef_unary_rows e ex w U : ef_unary e ex w = Ok U -> mrows U = mrows (ex_features ex).
Proof.
  unfold ef_unary, ef_unary_core. destruct (check_size_w _ w) as [[]|]; [|discriminate]. destruct (ef_check_x e ex) as [[]|]; [|discriminate]. cbn [bind].
  destruct (reshape _ _ _) as [B|]; [|discriminate]. cbn [bind]. intro H. apply (mat_mul_shape _ _ _ H).
Qed.
Lemma dir_inference_same x ex w : grid_ok g x -> dir_graph g x = Ok ex -> dir_inference solve g x w = ef_inference solve (dir_efcrf g) ex w.
Proof.
  intros O H. destruct (dir_graph_ok x ex O H) as (A & B & C & D & _ & _). unfold dir_inference, ef_inference. rewrite B.
  rewrite (dir_unary_same x ex w O H), (dir_pairwise_same x ex w O H).
  destruct (ef_unary (dir_efcrf g) ex w) as [U|] eqn:EU.
  - assert (EC : check_size_w (ef_size (dir_efcrf g)) w = Ok tt).
    { unfold ef_unary in EU. destruct (check_size_w _ w) as [[]|]; [reflexivity|discriminate]. }
    rewrite EC. cbn [bind]. destruct (ef_pairwise _ ex w) as [P|]; [|reflexivity]. cbn [bind]. destruct (solve U P (ex_edges ex)) as [y|] eqn:ES; [|reflexivity]. cbn [bind].
    apply reshape_y_ok. rewrite (HS _ _ _ _ (ef_unary_is_ok _ _ _ _ EU) ES), (ef_unary_rows _ _ _ _ EU). exact D.
  - cbn [bind]. unfold ef_unary in EU. destruct (check_size_w _ w) as [[]|] eqn:EC; cbn [bind] in *; congruence.
Qed.
Lemma dir_laug_same x ex y w : grid_ok g x -> dir_graph g x = Ok ex ->
  dir_loss_augmented_inference solve g cw x y w = ef_loss_augmented_inference solve (dir_efcrf g) cw ex y w.
Proof.
  intros O H. destruct (dir_graph_ok x ex O H) as (A & B & C & D & _ & _). unfold dir_loss_augmented_inference, ef_loss_augmented_inference. rewrite B.
  rewrite (dir_unary_same x ex w O H), (dir_pairwise_same x ex w O H).
  destruct (ef_unary (dir_efcrf g) ex w) as [U|] eqn:EU.
  - assert (EC : check_size_w (ef_size (dir_efcrf g)) w = Ok tt).
    { unfold ef_unary in EU. destruct (check_size_w _ w) as [[]|]; [reflexivity|discriminate]. }
    rewrite EC. cbn [bind]. destruct (ef_pairwise _ ex w) as [P|]; [|reflexivity]. cbn [bind].
    destruct (loss_augment_unaries U y cw) as [U'|] eqn:EL; [|reflexivity]. cbn [bind].
    destruct (solve U' P (ex_edges ex)) as [z|] eqn:ES; [|reflexivity]. cbn [bind].
    apply reshape_y_ok. rewrite (HS _ _ _ _ (laug_ok _ _ _ _ EL) ES), (laug_rows _ _ _ _ EL), (ef_unary_rows _ _ _ _ EU). exact D.
  - cbn [bind]. unfold ef_unary in EU. destruct (check_size_w _ w) as [[]|] eqn:EC; cbn [bind] in *; congruence.
Qed.
Lemma dir_alike x ex y : grid_ok g x -> dir_graph g x = Ok ex ->
  alike (dir_smodel solve g cw) (ef_smodel solve (dir_efcrf g) cw) (x, y) (ex, y).
Proof.
  intros O H. split; [reflexivity|]. exists (fun _ => True). cbn [fst snd]. split; [exact I|].
  split; [intros z zt _ _; cbn [sm_joint dir_smodel ef_smodel]; apply (dir_joint_same x ex _ O H)|].
  split; [intro w; apply (dir_inference_same x ex w O H)|]. split; [trivial|].
  split; [intros z w _; apply (dir_laug_same x ex z w O H)|]. split; [trivial|]. split; [reflexivity|]. intros; split; reflexivity.
Qed.
End Pictures.

(** ** constant edge features and chains, as models *)
Lemma const_alike solve g cw x y : g_directed g = true -> shape_blind solve ->
  alike (g_smodel solve g cw) (ef_smodel solve (one_edge_feature g) cw) (x, y) (with_constant_edges x, y).
Proof.
  intros D B. split; [reflexivity|]. exists (fun _ => True). cbn [fst snd]. split; [exact I|].
  split; [intros z zt _ _; cbn [sm_joint ef_smodel g_smodel]; symmetry; apply (joint_const g D)|].
  split; [intro w; symmetry; apply (inference_const g D solve B)|]. split; [trivial|].
  split; [intros z w _; symmetry; apply (laug_const g D solve B)|]. split; [trivial|]. split; [reflexivity|]. intros; split; reflexivity.
Qed.
Lemma chain_alike g cw x y : alike (chain_smodel g cw) (g_smodel max_product_solver g cw) (x, y) (chain_x x, y).
Proof.
  split; [reflexivity|]. exists (fun _ => True). repeat split; trivial.
Qed.
Lemma same_all {X X' Y} (m : smodel X Y) (m' : smodel X' Y) (h : X -> X') S : alike_sizes m m' ->
  Forall (fun p => alike m m' p (h (fst p), snd p)) S -> alike_samples m m' S (map (fun p => (h (fst p), snd p)) S).
Proof. intros A F. split; [exact A|]. induction F; cbn [map]; constructor; assumption. Qed.

(** ** solvers that label every node once *)
Lemma unary_labels b : labels_nodes (dispatch_solver b "unary").
Proof.
  intros U P es y _ H. unfold dispatch_solver, inference_dispatch, dispatch_name in H. cbn in H. unfold inference_unaries in H.
  destruct (validate_params U P (length es)); [|discriminate]. cbn [bind] in H. destruct (argmax_rows U) as [z|] eqn:E; [|discriminate].
  cbn in H. injection H as <-. apply (argmax_rows_first U z E).
Qed.
Lemma vit_forward_length ns prev rows trans f : vit_forward ns prev rows trans = Ok f -> length prev = ns ->
  length (fst f) = ns /\ (0 < ns -> length (snd f) = length rows).
Proof.
  revert prev trans f. induction rows as [|row rows IH]; intros prev trans f H L; cbn [vit_forward] in H.
  - injection H as <-. split; [exact L|reflexivity].
  - destruct trans as [|t trans].
    + destruct (ns =? 0) eqn:Z; [|discriminate]. apply Nat.eqb_eq in Z. split; [|lia]. apply (IH [] [] f H). cbn. lia.
    + destruct (mapM _ _) as [cells|] eqn:EM; [|discriminate]. cbn [bind] in H. destruct (vit_forward ns _ rows trans) as [r|] eqn:ER; [|discriminate].
      cbn [bind] in H. injection H as <-. cbn [fst snd]. assert (LC : length (map fst cells) = ns).
      { rewrite map_length, (LossProofs.mapM_length _ _ _ EM), seq_length. reflexivity. }
      destruct (IH _ _ _ ER LC) as [A B]. split; [exact A|]. intro P. cbn [length]. rewrite (B P). reflexivity.
Qed.
Lemma vit_back_length b l : length (vit_back b l) = Datatypes.S (length b).
Proof. induction b as [|r b IH]; [reflexivity|]. cbn [vit_back length]. rewrite IH. reflexivity. Qed.
Lemma viterbi_length U t y : mat_ok U -> viterbi U t = Ok y -> length y = mrows U.
Proof.
  intros [R C] H. unfold viterbi in H. destruct (mdat U) as [|row0 rows] eqn:ED; [discriminate|]. destruct (vit_forward _ row0 rows t) as [f|] eqn:EF; [|discriminate].
  cbn [bind] in H. inversion C as [|a b C0 _ E1]. destruct (vit_forward_length _ _ _ _ _ EF C0) as [A B].
  destruct (np_argmax (fst f)) as [last|] eqn:EA; [|discriminate]. cbn [bind] in H. injection H as <-. rewrite vit_back_length.
  rewrite B; [exact R|]. rewrite <- A. destruct (fst f); [discriminate|cbn; lia].
Qed.
Lemma max_product_length U P es mi da tol y : mat_ok U -> inference_max_product U P es mi da tol = Ok y -> length y = mrows U.
Proof.
  intros O H. unfold inference_max_product in H. destruct (validate_params U P _) as [v|]; [|discriminate]. cbn [bind] in H.
  destruct (is_chain es (mrows U)); [apply (viterbi_length U (snd v) y O H)|]. destruct (is_forest es _) as [[|]|]; [..|discriminate]; cbn [bind] in H.
  - unfold tree_max_product in H. destruct (ensure _ _); [|discriminate]. cbn [bind] in H. destruct (search _ _ es) as [[st|]|]; [|discriminate..].
    cbn [bind] in H. destruct (tree_backward _ _ _ _ _ _); [|discriminate]. cbn [bind] in H. destruct (tree_forward _ _ _ _ _ _ _); [|discriminate].
    cbn [bind] in H. rewrite (LossProofs.mapM_length _ _ _ H), seq_length. reflexivity.
  - unfold iterative_max_product in H. destruct (ensure _ _); [|discriminate]. cbn [bind] in H. destruct (loopy_iter _ _ _ _ _ _ _ _); [|discriminate].
    cbn [bind] in H. rewrite (LossProofs.mapM_length _ _ _ H), seq_length. reflexivity.
Qed.
Lemma max_product_labels b : labels_nodes (dispatch_solver b "max-product") /\ labels_nodes max_product_solver.
Proof.
  split; [|intros U P es y O H; exact (max_product_length U P es 30 (Q2Qc (1 # 2)) default_tol y O H)].
  intros U P es y O H. unfold dispatch_solver, inference_dispatch, dispatch_name in H. cbn in H.
  destruct (inference_max_product _ _ _ _ _ _) as [z|] eqn:E in H; [|discriminate]. cbn in H. injection H as <-.
  eapply max_product_length; eassumption.
Qed.
Lemma max_product_blind : shape_blind max_product_solver.
Proof. intros U P es O R C. unfold max_product_solver, inference_max_product. rewrite (validate_same U P es R C). reflexivity. Qed.

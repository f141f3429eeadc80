From Coq Require Import ZArith Lia String List.
From Verif Require Import Spec.SimilarSpec Spec.ClassSpec Spec.SingleTypeSpec Spec.Energy Spec.GraphSpec Model.BatchInstances Proofs.Arrays Proofs.SymProofs Proofs.GraphCRFProofs Proofs.LossProofs Proofs.UnstructuredProofs Proofs.UnstructuredProofs2 Proofs.OneSlackProofs Proofs.OneSlackExamples
  Proofs.Alike Proofs.Similar Proofs.Similar2 Proofs.Similar3.
Import ListNotations.

Lemma vadd_zeros k : vadd (vzero k) (vzero k) = vzero k.
Proof. apply vec_ext; [unfold vadd; rewrite zipw_length, vzero_length; lia|]. intros i _. rewrite get1_vadd, get1_vzero by (rewrite !vzero_length; reflexivity). ring. Qed.
Lemma vscale_zeros c k : vscale c (vzero k) = vzero k.
Proof. apply vec_ext; [unfold vscale; rewrite map_length; reflexivity|]. intros i _. rewrite get1_vscale, get1_vzero. ring. Qed.
Lemma padded_isometry n n' : (n <= n')%nat -> isometry n n' (padded n n').
Proof.
  intro H. split; [|split; [|split; [|split]]].
  - intros a a' [E ->]. split; [exact E|]. rewrite app_length, vzero_length. lia.
  - split; [apply vzero_length|]. unfold vzero. rewrite <- repeat_app. replace (n + (n' - n))%nat with n' by lia. reflexivity.
  - intros a a' b b' [E ->] [E' ->]. split; [unfold vadd; rewrite zipw_length; lia|]. unfold vadd. rewrite zipw_app by lia. f_equal.
    apply vadd_zeros.
  - intros c a a' [E ->]. split; [unfold vscale; rewrite map_length; exact E|]. unfold vscale. rewrite map_app. f_equal.
    apply vscale_zeros.
  - intros a a' b b' [E ->] [E' ->]. rewrite dot_app by lia. rewrite dot_vzero_l. ring.
Qed.

Section OneNode.
Variables (k F : nat) (directed : bool) (cw : list Qc) (uniform : bool) (solve : solver).
Let g := GraphCRF k F directed.
Let m := MC k F cw uniform false.
Let d := (k * F)%nat.
Let d' := g_size g.
Notation V := (padded d d').
Notation L := (node_label k F).
Hypothesis Hk : (0 < k)%nat.
Hypothesis Hcw : length cw = k.
Hypothesis Hu : uniform = true -> forall s, (s < k)%nat -> get1 cw s = 1.
Hypothesis Hsolve : first_best_node k solve.

Lemma size_le : (d <= d')%nat.
Proof. unfold d, d', g_size, g. cbn. destruct directed; lia. Qed.
Lemma node_isometry : isometry d d' V.
Proof. apply padded_isometry, size_le. Qed.
Lemma node_valid x : length x = F -> valid_x g (node_x x).
Proof.
  intro E. constructor; cbn.
  - split; [reflexivity|]. constructor; [reflexivity|constructor].
  - exact E.
  - constructor.
Qed.
Lemma node_joint x y : length x = F -> (y < k)%nat -> g_joint_feature g (node_x x) (Discrete (node_y y)) = Ok (class_feature 1 k F x y ++ vzero (d' - d)).
Proof.
  intros E Hy. unfold g_joint_feature. unfold g_check_x. cbn [node_x gx_features mcols g_features g]. rewrite E, Nat.eqb_refl. cbn [ensure bind g_states mrows gx_edges].
  destruct (g_marginals_discrete k 1 [] (node_y y)) as (um & pw & EM & A1 & A2 & A3 & B1 & B2 & B3 & Mu & Mp); [split; [reflexivity|repeat constructor; exact Hy]|constructor|].
  cbn [g g_states node_x gx_edges]. rewrite EM. cbn [bind]. rewrite mat_mul_ok by (change (mcols (mat_T um)) with (mrows um); rewrite A1; reflexivity). cbn [bind]. change (mrows (mat_T um)) with (mcols um). change (mcols (mat_T um)) with (mrows um). rewrite A1.
  assert (EP : pw = mtab k k (fun _ _ => 0)). { apply mat_eq_ext; try assumption; [apply mtab_ok|]. intros i j Hi Hj. rewrite B1 in Hi. rewrite B2 in Hj. rewrite mget_mtab, Mp by assumption. reflexivity. }
  assert (EQ : (if g_directed g then Ok (ravel pw) else compress_sym pw true) = Ok (vzero (d' - d))).
  { unfold d', d, g_size. cbn [g g_directed g_states g_features]. destruct directed.
    - f_equal. rewrite EP. unfold ravel, mtab. cbn [mdat]. replace (k * F + k * k - k * F)%nat with (k * k)%nat by lia. symmetry. apply vzero_tab2.
    - rewrite (compress_sym_true_ok k pw B1 B2). f_equal. replace (k * F + k * (k + 1) / 2 - k * F)%nat with (k * (k + 1) / 2)%nat by lia.
      fold (trinum k). rewrite <- tri_positions_length. assert (HIN : forall p, In p (tri_positions k) -> (fst p < k)%nat /\ (snd p < k)%nat) by (intros [i j] HI; apply tri_positions_in in HI; cbn; lia).
      revert HIN. generalize (tri_positions k). intros ps HIN. induction ps as [|p ps IH]; [reflexivity|]. destruct (HIN p (or_introl eq_refl)) as [I1 I2]. cbn [map length]. unfold vzero. cbn [repeat]. f_equal.
      + rewrite EP, !mget_mtab by assumption. destruct (fst p =? snd p)%nat; ring.
      + apply IH. intros q Hq. apply HIN. right. exact Hq. }
  rewrite EQ. cbn [bind]. f_equal. f_equal. unfold ravel, class_feature. cbn [mdat mtab mcols mrows]. rewrite A2. f_equal. apply tab2_ext. intros s j Hs Hj.
  rewrite sumn_S. rewrite mget_T by lia. rewrite Mu by lia. match goal with |- context [sumn 0 ?f] => change (sumn 0 f) with 0 end. unfold lab, node_y. cbn [nth]. change (mget (Mat 1 F [x]) 0 j) with (get1 x j). unfold ind. destruct (s =? y)%nat; ring.
Qed.
Lemma node_unary x w : length x = F -> length w = d -> exists P, g_potentials g (node_x x) (w ++ vzero (d' - d)) = Ok (Mat 1 k [tab1 k (class_score F w x)], P) /\ mrows P = k /\ mcols P = k.
Proof.
  intros E Hw. assert (LW : length (w ++ vzero (d' - d)) = g_size g) by (rewrite app_length, vzero_length, Hw; fold d'; assert (H := size_le); lia).
  unfold g_potentials. rewrite check_size_w_ok by exact LW. cbn [bind]. destruct (g_unary_ok g (node_x x) _ (node_valid x E) LW) as (U & EU & U1 & U2 & U3 & HU). rewrite EU. cbn [bind].
  assert (EQU : U = Mat 1 k [tab1 k (class_score F w x)]).
  { change (Mat 1 k [tab1 k (class_score F w x)]) with (mtab 1 k (fun _ => class_score F w x)). apply mat_eq_ext; [exact U1|apply mtab_ok|exact U2|exact U3|]. intros i s Hi Hs. rewrite U2 in Hi. rewrite U3 in Hs. cbn in Hi, Hs.
    rewrite mget_mtab, HU by assumption. unfold unary_score, class_score. cbn [g g_features]. apply sumn_ext. intros j Hj. assert (i = 0%nat) by lia. subst i. cbn. unfold get1, mget. cbn. f_equal.
    rewrite app_nth1; [reflexivity|]. rewrite Hw. unfold d. nia. }
  unfold g_pairwise. rewrite check_size_w_ok by exact LW. rewrite (g_check_x_ok g _ (node_valid x E)). cbn [bind g g_states g_features g_directed].
  assert (ES : skipn (k * F) (w ++ vzero (d' - d)) = vzero (d' - d)). { fold d. rewrite <- Hw. rewrite skipn_app, skipn_all, Nat.sub_diag. reflexivity. }
  rewrite ES. assert (DD := size_le). destruct directed eqn:ED.
  - rewrite reshape_ok by (rewrite vzero_length; unfold d', d, g_size, g; cbn; lia). cbn [bind]. eexists. split; [rewrite EQU; reflexivity|]. split; reflexivity.
  - destruct (expand_sym_ok k (vzero (d' - d))) as (P & EP & P1 & P2 & P3 & _); [rewrite vzero_length; unfold d', d, g_size, g, trinum; cbn; lia|].
    rewrite EP. cbn [bind]. exists P. split; [rewrite EQU; reflexivity|]. split; assumption.
Qed.
Lemma node_similar x y : length x = F -> (y < k)%nat -> similar V L (mc_smodel m) (g_smodel solve g cw) (x, y) (node_x x, node_y y).
Proof.
  intros E Hy. assert (LX : forall t, (t < k)%nat -> L x (node_x x) t (node_y t)) by (intros t Ht; repeat split; auto).
  split; [exact (LX y Hy)|]. cbn [fst snd]. split.
  - intros t t' (_ & _ & Ht & ->). cbn [sm_joint sm_tuple sm_loss sm_closs mc_smodel g_smodel]. rewrite !(node_joint x t E Ht), !(mc_joint_ok m x t _ 1 Ht E eq_refl).
    assert (HP : V (class_feature 1 k F x t) (class_feature 1 k F x t ++ vzero (d' - d))) by (split; [apply class_feature_length|reflexivity]).
    split; [exact HP|]. split; [exact HP|]. split; [reflexivity|]. split; [|reflexivity].
    unfold mc_loss, loss, class_weights, node_y. cbn [mapM m mc_cw]. destruct (index cw y) as [c|]; [|reflexivity]. cbn. f_equal. ring.
  - intros w w' [Hw ->]. cbn [sm_inference sm_laug mc_smodel g_smodel]. destruct (node_unary x w E Hw) as (P & EP & P1 & P2).
    split.
    + unfold g_inference. rewrite EP. cbn [bind fst snd node_x gx_edges]. rewrite Hsolve by (rewrite ?tab1_length; auto).
      unfold mc_inference. rewrite (mc_scores_ok m x w Hk Hw E). cbn [bind m mc_states mc_features]. destruct (argmax_tab1 k (class_score F w x) Hk) as (s & ES & (Hs & _)). rewrite ES. cbn [bind]. exact (LX s Hs).
    + unfold g_loss_augmented_inference. rewrite EP. cbn [bind fst snd node_x gx_edges].
      destruct (loss_augment_ok (Mat 1 k [tab1 k (class_score F w x)]) (node_y y) cw 1 k eq_refl eq_refl Hcw) as (U & EU & U1 & U2 & U3 & HU); [split; [reflexivity|repeat constructor; exact Hy]|].
      rewrite EU. cbn [bind]. assert (HI : index (mc_cw m) y = Ok (get1 cw y)) by (apply index_ok; cbn [m mc_cw]; lia).
      assert (EA := mc_augmented_ok m x y w (get1 cw y) Hk Hw E HI). unfold mc_laug. rewrite EA. cbn [bind m mc_states mc_features].
      assert (EQU : U = Mat 1 k [tab1 k (fun t => class_score F w x t + (if (t =? y)%nat then 0 else get1 cw y))]).
      { change (Mat 1 k [?r]) with (mtab 1 k (fun _ => fun t => class_score F w x t + (if (t =? y)%nat then 0 else get1 cw y))). apply mat_eq_ext; [exact U1|apply mtab_ok|exact U2|exact U3|].
        intros i s Hi Hs. rewrite U2 in Hi. rewrite U3 in Hs. rewrite mget_mtab, HU by assumption. assert (i = 0%nat) by lia. subst i. unfold lab, node_y. cbn [nth]. rewrite (Nat.eqb_sym y s). f_equal.
        change (mget (Mat 1 k [tab1 k (class_score F w x)]) 0 s) with (get1 (tab1 k (class_score F w x)) s). apply get1_tab1. exact Hs. }
      rewrite EQU. rewrite Hsolve by (rewrite ?tab1_length; auto).
      destruct (argmax_tab1 k (fun t => class_score F w x t + (if (t =? y)%nat then 0 else get1 cw y)) Hk) as (s & ES & (Hs & _)). rewrite ES. cbn [bind]. exact (LX s Hs).
Qed.
Lemma node_sizes : similar_sizes d d' (mc_smodel m) (g_smodel solve g cw).
Proof. repeat split. Qed.
(** the batch methods of MultiClassClf and the default ones *)
Lemma batch_shape B B' : Forall2 (similar V L (mc_smodel m) (g_smodel solve g cw)) B B' ->
  Forall (fun x => length x = F) (map fst B) /\ Forall (fun y => (y < k)%nat) (map snd B).
Proof. induction 1 as [|p p' B B' ((E & _ & Hy & _) & _) _ [I1 I2]]; cbn; split; constructor; assumption. Qed.
Lemma each_shape B B' Yh Yh' : each (sample_label L) B B' Yh Yh' -> length Yh = length B /\ Forall (fun y => (y < k)%nat) Yh.
Proof. induction 1 as [|p p' a a' B B' l l' (_ & _ & H & _) _ [I1 I2]]; cbn; split; [reflexivity|constructor|lia|constructor; assumption]. Qed.
Lemma mc_joint_default Xs Yh t : Forall (fun x => length x = F) Xs -> length Yh = length Xs -> Forall (fun y => (y < k)%nat) Yh ->
  bm_joint (mc_bmodel m) Xs Yh t = bm_joint (base_bmodel (mc_smodel m)) Xs Yh t.
Proof.
  intros HX HL HY. cbn [bm_joint mc_bmodel base_bmodel mc_smodel sm_rescale sm_joint sm_size m mc_rescale].
  assert (ET : mc_batch_joint_feature m (rows_mat (mc_features m) Xs) Yh t = mc_batch_joint_feature m (rows_mat (mc_features m) Xs) Yh None) by reflexivity. fold m. rewrite ET.
  destruct (mc_batch_joint_plain m (rows_mat F Xs) Yh eq_refl (rows_ok F Xs HX) eq_refl HL HY) as (fs & E1 & E2). cbn [m mc_features] in E2 |- *. rewrite E2.
  cbn [rows_mat mdat] in E1. assert (EM : map (fun p => mc_joint_feature m (fst p) (snd p) None) (combine Xs Yh) = map Ok fs /\ Forall (fun f => length f = mc_size m) fs).
  { clear E2 ET. revert Yh fs HL HY E1. induction HX as [|x Xs Hx HX IH]; intros [|y Yh] fs HL HY E1; try discriminate; cbn [combine mapM] in E1; [injection E1 as <-; split; [reflexivity|constructor]|].
    assert (Hy := Forall_inv HY). assert (HY' := Forall_inv_tail HY). cbn beta in Hy. cbn [fst snd] in E1. rewrite (mc_joint_ok m x y None 1 Hy Hx eq_refl) in E1. cbn [bind] in E1. destruct (mapM _ (combine Xs Yh)) as [r|] eqn:ER; [|discriminate]. cbn [bind] in E1. injection E1 as <-.
    cbn in HL. destruct (IH Yh r ltac:(lia) HY' ER) as [I1 I2]. split; [cbn [combine map fst snd]; rewrite I1, (mc_joint_ok m x y None 1 Hy Hx eq_refl); reflexivity|]. constructor; [apply class_feature_length|exact I2]. }
  destruct EM as [EM FL]. symmetry. etransitivity; [exact (f_equal (sum_features (vzero (mc_size m))) EM)|]. rewrite (sum_features_ok (mc_size m) fs FL) by apply vzero_length. f_equal. unfold vsum. apply vadd_vzero_l.
  apply (UnstructuredProofs2.vsum_length (mc_size m) fs). apply Forall_forall. exact FL.
Qed.
Lemma node_models : similar_models V L d d' (mc_bmodel m) (base_bmodel (g_smodel solve g cw)).
Proof.
  split; [exact node_sizes|]. intros B B' FB NB. destruct (batch_shape B B' FB) as [BX BY].
  destruct (base_similar d d' V L node_isometry (mc_smodel m) (g_smodel solve g cw) node_sizes) as [_ HB]. destruct (HB B B' FB NB) as [H1 H2]. split.
  - intros w w' HW. replace (bm_laug (mc_bmodel m) (map fst B) (map snd B) w) with (bm_laug (base_bmodel (mc_smodel m)) (map fst B) (map snd B) w); [exact (H1 w w' HW)|].
    symmetry. cbn [mc_bmodel bm_laug base_bmodel]. apply mc_batch_laug_agrees; auto; [apply rows_ok; exact BX|exact (proj1 HW)|cbn; rewrite !map_length; reflexivity].
  - intros Yh Yh' HY. destruct (each_shape B B' Yh Yh' HY) as [Y1 Y2]. destruct (H2 Yh Yh' HY) as (J1 & J2 & J3). rewrite !mc_joint_default; auto; try (rewrite map_length; assumption).
    split; [|split; assumption]. rewrite <- J1. cbn [mc_bmodel bm_loss base_bmodel]. rewrite mc_batch_loss_agrees by (rewrite map_length; lia). reflexivity.
Qed.
Lemma node_samples (S : list (list Qc * nat)) : Forall (fun p => length (fst p) = F /\ (snd p < k)%nat) S ->
  similar_samples V L d d' (mc_smodel m) (g_smodel solve g cw) S (map (fun p => (node_x (fst p), node_y (snd p))) S).
Proof. intro FS. split; [exact node_sizes|]. induction FS as [|[x y] S [H1 H2] _ IH]; cbn; constructor; [apply node_similar; assumption|exact IH]. Qed.
Lemma node_eq (S : list (list Qc * nat)) S' : similar_eq L S S' (fun a b => Nat.eqb a b) (fun a b : list nat => match a, b with [s], [t] => Nat.eqb s t | _, _ => false end).
Proof. intros p p' y y' z z' _ (_ & _ & _ & ->) (_ & _ & _ & ->). reflexivity. Qed.
End OneNode.

Lemma first_best_unary b k : first_best_node k (dispatch_solver b "unary").
Proof.
  intros row P E P1 P2. unfold dispatch_solver, inference_dispatch, dispatch_name. cbn. unfold inference_unaries, validate_params. cbn [mcols length]. rewrite P1, P2, Nat.eqb_refl. cbn [andb bind].
  unfold argmax_rows. cbn [mrows mcols seq mapM]. replace (tab1 k (mget (Mat 1 k [row]) 0)) with row.
  - destruct (np_argmax row); reflexivity.
  - apply vec_ext; [rewrite tab1_length; exact E|]. intros i Hi. rewrite get1_tab1 by lia. reflexivity.
Qed.
Lemma first_best_max_product b k : first_best_node k (dispatch_solver b "max-product").
Proof.
  intros row P E P1 P2. unfold dispatch_solver, inference_dispatch, dispatch_name. cbn -[default_tol]. unfold inference_max_product, validate_params. cbn [mcols length]. rewrite P1, P2, Nat.eqb_refl. cbn.
  destruct (np_argmax row); reflexivity.
Qed.

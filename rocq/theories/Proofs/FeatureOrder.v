From Coq Require Import ZArith Lia.
From Verif Require Import Spec.FeatureOrderSpec Proofs.Arrays Proofs.SymProofs Proofs.GraphCRFProofs Proofs.SwapTypes
  Proofs.Alike Proofs.Similar Proofs.Similar2 Proofs.Similar3.

Section Order.
Variables (g : graph_crf) (p : list nat) (solve : solver) (cw : list Qc).
Hypothesis HP : permutes (g_features g) p.
Notation k := (g_states g).
Notation F := (g_features g).
Notation n := (g_size g).
Notation V := (reordered_weights g p).
Notation L := (reordered_label g p).
Let r := (if g_directed g then k * k else trinum k)%nat.
Lemma size_split : n = (k * F + r)%nat.
Proof. apply g_size_eq. Qed.
Lemma part_lt j : (j < F)%nat -> (part p j < F)%nat.
Proof. intro H. exact (proj1 (proj2 HP) j H). Qed.
Lemma order_isometry : isometry n n V.
Proof.
  split; [|split; [|split; [|split]]].
  - intros a a' (H1 & H2 & _). auto.
  - split; [apply vzero_length|]. split; [apply vzero_length|]. split; intros; rewrite !get1_vzero; reflexivity.
  - intros a a' b b' (A1 & A2 & A3 & A4) (B1 & B2 & B3 & B4). split; [unfold vadd; rewrite zipw_length; lia|]. split; [unfold vadd; rewrite zipw_length; lia|]. split; [intros s j Hs Hj|intros i Hi]; rewrite !get1_vadd by lia; [rewrite (A3 s j Hs Hj), (B3 s j Hs Hj)|rewrite (A4 i Hi), (B4 i Hi)]; reflexivity.
  - intros c a a' (A1 & A2 & A3 & A4). split; [unfold vscale; rewrite map_length; exact A1|]. split; [unfold vscale; rewrite map_length; exact A2|]. split; [intros s j Hs Hj|intros i Hi]; rewrite !get1_vscale; [rewrite (A3 s j Hs Hj)|rewrite (A4 i Hi)]; reflexivity.
  - intros a a' b b' (A1 & A2 & A3 & A4) (B1 & B2 & B3 & B4). rewrite !dot_get by congruence. rewrite A1, A2, size_split, !sumn_split, !sumn_mul. f_equal.
    + apply sumn_ext. intros s Hs. rewrite <- (sumn_permutes F p _ HP). apply sumn_ext. intros j Hj. rewrite (A3 s j Hs Hj), (B3 s j Hs Hj). reflexivity.
    + apply sumn_ext. intros i Hi. rewrite A4, B4 by lia. reflexivity.
Qed.
Lemma marginals_shape n0 es y um pw : g_marginals k n0 es (Discrete y) = Ok (um, pw) -> mcols um = k /\ mrows pw = k /\ mcols pw = k.
Proof.
  unfold g_marginals, one_hot, take_rows, mat_mul. destruct (ensure _ _); [|discriminate]. cbn [bind]. destruct (forallb _ y); [|discriminate]. cbn [bind]. destruct (forallb _ _); [|discriminate]. cbn [bind].
  destruct (forallb _ _); [|discriminate]. cbn [bind mcols mrows mat_T mtab]. destruct (_ =? _)%nat; [|discriminate]. cbn [bind]. intro H. injection H as <- <-. repeat split.
Qed.
Lemma get1_app1 (a b : list Qc) i : (i < length a)%nat -> get1 (a ++ b) i = get1 a i.
Proof. intro H. unfold get1. apply app_nth1. exact H. Qed.
Lemma order_joint x y : mcols (gx_features x) = F -> rel_res V (g_joint_feature g x (Discrete y)) (g_joint_feature g (reorder_x p x) (Discrete y)).
Proof.
  intro E. unfold g_joint_feature, g_check_x. cbn [reorder_x gx_features gx_edges mtab mcols mrows]. rewrite E, Nat.eqb_refl. cbn [ensure bind].
  destruct (g_marginals _ _ _ _) as [[um pw]|] eqn:EM; [|reflexivity]. destruct (marginals_shape _ _ _ _ _ EM) as (S1 & S2 & S3). cbn [bind].
  unfold mat_mul at 1 2. cbn [mrows mcols]. destruct (_ =? _)%nat eqn:EQ; [|reflexivity]. apply Nat.eqb_eq in EQ. cbn [bind].
  assert (EP : exists v, (if g_directed g then Ok (ravel pw) else compress_sym pw true) = Ok v /\ True).
  { destruct (g_directed g); [eexists; split; [reflexivity|exact I]|]. rewrite (compress_sym_true_ok k pw S2 S3). eexists; split; [reflexivity|exact I]. }
  destruct EP as (v & EP & _). rewrite EP. cbn [bind].
  change (mrows (mat_T um)) with (mcols um). rewrite S1. unfold ravel. cbn [mdat mtab]. rewrite E.
  assert (LA : forall f, length (concat (tab2 k F f)) = (k * F)%nat) by (intro; apply concat_tab2_length).
  assert (LV : length v = r).
  { unfold r. destruct (g_directed g) eqn:ED.
    - assert (EW := EP). unfold g_marginals in EM. injection EW as <-. unfold ravel. revert EM. unfold one_hot, take_rows, mat_mul. destruct (ensure _ _); [|discriminate]. cbn [bind]. destruct (forallb _ y); [|discriminate]. cbn [bind]. destruct (forallb _ _); [|discriminate]. cbn [bind].
      destruct (forallb _ _); [|discriminate]. cbn [bind]. destruct (_ =? _)%nat; [|discriminate]. cbn [bind]. intro H. injection H as _ <-. cbn [mtab mdat mat_T mrows mcols]. apply concat_tab2_length.
    - rewrite (compress_sym_true_ok k pw S2 S3) in EP. injection EP as <-. rewrite map_length. apply tri_positions_length. }
  cbn [rel_res]. split; [rewrite app_length, LA, size_split; lia|]. split; [rewrite app_length, LA, size_split; lia|]. split.
  - intros s j Hs Hj. assert (PJ := part_lt j Hj). rewrite !get1_app1 by (rewrite LA; nia). rewrite !get1_concat_tab2 by assumption. apply sumn_ext. intros i Hi. f_equal.
    change (mget (mtab (mrows (gx_features x)) F (fun i0 j0 => mget (gx_features x) i0 (part p j0))) i j = mget (gx_features x) i (part p j)). rewrite mget_mtab; [reflexivity|lia|exact Hj].
  - intros i Hi. unfold get1. rewrite !app_nth2 by (rewrite LA; exact Hi). rewrite !LA. reflexivity.
Qed.
Lemma order_potentials x w w' : mcols (gx_features x) = F -> V w w' -> g_potentials g (reorder_x p x) w' = g_potentials g x w.
Proof.
  intros E (W1 & W2 & W3 & W4). unfold g_potentials. rewrite !check_size_w_ok by assumption. cbn [bind].
  assert (EU : g_unary g (reorder_x p x) w' = g_unary g x w).
  { unfold g_unary. rewrite !check_size_w_ok by assumption. unfold g_check_x. cbn [reorder_x gx_features mtab mcols]. rewrite E, Nat.eqb_refl. cbn [ensure bind].
    assert (SZ := size_split). rewrite !reshape_ok by (rewrite firstn_length; lia). cbn [bind]. unfold mat_mul. cbn [mcols mrows mat_T mtab]. rewrite E, Nat.eqb_refl. f_equal. unfold mtab. f_equal.
    apply tab2_ext. intros i s Hi Hs. rewrite <- (sumn_permutes F p (fun j => mget (gx_features x) i j * _) HP). apply sumn_ext. intros j Hj. assert (PJ := part_lt j Hj). f_equal.
    - change (mget (mtab (mrows (gx_features x)) F (fun i0 j0 => mget (gx_features x) i0 (part p j0))) i j = mget (gx_features x) i (part p j)). rewrite mget_mtab by assumption. reflexivity.
    - change (mget (mat_T (mtab k F (fun i0 j0 => get1 (firstn (k * F) w') (i0 * F + j0)))) j s = mget (mat_T (mtab k F (fun i0 j0 => get1 (firstn (k * F) w) (i0 * F + j0)))) (part p j) s).
      rewrite !mget_T by assumption. rewrite !mget_mtab by assumption. rewrite !get1_firstn by nia. apply W3; assumption. }
  rewrite EU. destruct (g_unary g x w); [|reflexivity]. cbn [bind].
  assert (ES : skipn (k * F) w' = skipn (k * F) w).
  { apply vec_ext; [rewrite !skipn_length; lia|]. intros i _. rewrite !get1_skipn. apply W4. lia. }
  unfold g_pairwise. rewrite !check_size_w_ok by assumption. unfold g_check_x. cbn [reorder_x gx_features mtab mcols]. rewrite ES. reflexivity.
Qed.
Lemma order_similar x y : mcols (gx_features x) = F -> similar V L (g_smodel solve g cw) (g_smodel solve g cw) (x, y) (reorder_x p x, y).
Proof.
  intro E. split; [repeat split; exact E|]. cbn [fst snd]. split.
  - intros t t' (_ & _ & ->). cbn [sm_joint sm_tuple sm_loss sm_closs g_smodel fst snd]. split; [apply order_joint; exact E|]. split; [apply order_joint; exact E|]. auto.
  - intros w w' HW. cbn [sm_inference sm_laug g_smodel]. unfold g_inference, g_loss_augmented_inference. cbn [fst snd]. rewrite (order_potentials x w w' E HW).
    destruct (g_potentials g x w) as [[U P]|]; [|split; reflexivity]. cbn [bind fst snd reorder_x gx_edges]. split.
    + destruct (solve _ _ _); [|reflexivity]. repeat split; exact E.
    + destruct (loss_augment_unaries _ _ _); [|reflexivity]. cbn [bind]. destruct (solve _ _ _); [|reflexivity]. repeat split; exact E.
Qed.
Lemma order_sizes : similar_sizes n n (g_smodel solve g cw) (g_smodel solve g cw).
Proof. repeat split. Qed.
Lemma order_samples S : Forall (fun q => mcols (gx_features (fst q)) = F) S ->
  similar_samples V L n n (g_smodel solve g cw) (g_smodel solve g cw) S (map (fun q => (reorder_x p (fst q), snd q)) S).
Proof. intro FS. split; [exact order_sizes|]. induction FS as [|[x y] S H _ IH]; cbn; constructor; [apply order_similar; exact H|exact IH]. Qed.
Lemma order_models : similar_models V L n n (base_bmodel (g_smodel solve g cw)) (base_bmodel (g_smodel solve g cw)).
Proof. apply (base_similar n n V L order_isometry). exact order_sizes. Qed.
End Order.
Lemma order_os g p solve cw ceq qps prm S : permutes (g_features g) p ->
  Forall (fun q => mcols (gx_features (fst q)) = g_features g) S -> S <> [] -> o_neg prm = None ->
  rel_res (fun q q' => reordered_weights g p (o_w (fst q)) (o_w (fst q')) /\ o_curve (fst q) = o_curve (fst q') /\
                       o_primal (fst q) = o_primal (fst q') /\ snd q = snd q')
    (os_fit ceq qps prm (base_bmodel (g_smodel solve g cw)) None (map fst S) (map snd S) Cold)
    (os_fit ceq qps prm (base_bmodel (g_smodel solve g cw)) None (map (fun q => reorder_x p (fst q)) S) (map snd S) Cold).
Proof.
  intros HP HS NE HN. set (S' := map (fun q => (reorder_x p (fst q), snd q)) S).
  replace (map (fun q => reorder_x p (fst q)) S) with (map fst S') by (unfold S'; rewrite map_map; reflexivity).
  replace (os_fit ceq qps prm (base_bmodel (g_smodel solve g cw)) None (map fst S') (map snd S) Cold) with
    (os_fit ceq qps prm (base_bmodel (g_smodel solve g cw)) None (map fst S') (map snd S') Cold) by (unfold S'; rewrite (map_map _ snd); reflexivity).
  apply (rel_imp (fun q q' => similar_os (reordered_weights g p) (reordered_label g p) S S' (fst q) (fst q') /\ snd q = snd q')).
  - intros q q' ((H1 & _ & _ & _ & _ & H2 & H3 & _) & H4). auto.
  - apply (sim_os_fit (g_size g) (g_size g) _ _ (order_isometry g p HP) S S' prm prm); try exact I;
      [|exact NE|intros q q' y y' z z' _ (_ & _ & ->) (_ & _ & ->); reflexivity|exact (order_models g p solve cw HP)|exact (proj2 (order_samples g p solve cw HP S HS))].
    repeat split. unfold similar_neg. rewrite HN. exact I.
Qed.

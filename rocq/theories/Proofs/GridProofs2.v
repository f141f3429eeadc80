From Verif Require Import Model.Grid Spec.GridSpec Spec.EdgeSpec Spec.LossSpec Spec.SolverSpec
  Proofs.Arrays Proofs.SymProofs Proofs.EnergyProofs Proofs.GraphCRFProofs Proofs.LossProofs Proofs.CRFProofs
  Proofs.EdgeFeatureProofs Proofs.EdgeFeatureProofs2 Proofs.GridProofs.

Lemma grid_edges_sound h w nb es : make_grid_edges h w nb = Ok es -> graph_edges (h * w) es.
Proof.
  intro E. destruct (Nat.eq_dec nb 4) as [->|H4].
  - destruct (grid_edges_4 h w) as [es' [E' [_ [G _]]]]. rewrite E in E'. injection E' as <-. exact G.
  - destruct (Nat.eq_dec nb 8) as [->|H8].
    + destruct (grid_edges_8 h w) as [es' [E' [_ [G _]]]]. rewrite E in E'. injection E' as <-. exact G.
    + destruct (grid_edges_other h w nb H4 H8) as [E' _]. congruence.
Qed.

Lemma grid_features_ok x F : (0 < F)%nat -> length (gr_data x) = (gr_h x * gr_w x * F)%nat ->
  grid_features F x = Ok (mtab (gr_h x * gr_w x) F (fun i f => get1 (gr_data x) (i * F + f))).
Proof.
  intros HF HL. unfold grid_features. replace (F =? 0)%nat with false by (symmetry; apply Nat.eqb_neq; lia).
  rewrite HL, Nat.div_mul by lia. apply reshape_ok. exact HL.
Qed.

Lemma grid_graph_ok g x es : (0 < gr_features g)%nat -> length (gr_data x) = (gr_h x * gr_w x * gr_features g)%nat ->
  make_grid_edges (gr_h x) (gr_w x) (gr_neighborhood g) = Ok es ->
  grid_graph g x = Ok (GraphX (mtab (gr_h x * gr_w x) (gr_features g) (fun i f => get1 (gr_data x) (i * gr_features g + f))) es).
Proof. intros HF HL E. unfold grid_graph. rewrite grid_features_ok by assumption. cbn [bind]. rewrite E. reflexivity. Qed.

Lemma gridcrf_score : forall (g : grid_crf) (x : grid_x) (w : list Qc) (y : list nat) (es : list (nat * nat)),
  make_grid_edges (gr_h x) (gr_w x) (gr_neighborhood g) = Ok es ->
  (0 < gr_features g)%nat -> length (gr_data x) = (gr_h x * gr_w x * gr_features g)%nat ->
  length w = (gr_states g * gr_features g + gr_states g * (gr_states g + 1) / 2)%nat ->
  labelling (gr_h x * gr_w x) (gr_states g) y ->
  exists psi, grid_joint_feature g x (Discrete y) = Ok psi /\ length psi = length w /\
    dot w psi =
      score (gr_h x * gr_w x) es
        (fun i s => unary_score (gr_features g) w (fun f => get1 (gr_data x) (i * gr_features g + f)) s)
        (fun _ s t => get1 w (gr_states g * gr_features g + tri_index s t)) (lab y).
Proof.
  intros g x w y es E HF HL Hw Hy. unfold grid_joint_feature. rewrite (grid_graph_ok g x es) by assumption. cbn [bind].
  destruct (graphcrf_score_linear (grid_gcrf g) (GraphX (mtab (gr_h x * gr_w x) (gr_features g) (fun i f => get1 (gr_data x) (i * gr_features g + f))) es) w y)
    as [U [P [psi [_ [_ [E1 [E2 [_ E3]]]]]]]]; try exact Hw; try exact Hy.
  - apply mtab_ok.
  - reflexivity.
  - apply (grid_edges_sound _ _ _ _ E).
  - exists psi. split; [exact E1|]. split; [rewrite E2; symmetry; exact Hw|]. rewrite E3. unfold score. f_equal.
    apply sumn_ext. intros i Hi. unfold unary_score. apply sumn_ext. intros f Hf. f_equal.
    apply (mget_mtab _ _ (fun i f => get1 (gr_data x) (i * gr_features g + f))); [|exact Hf].
    exact Hi.
Qed.

Lemma gridcrf_wrong_features : forall (g : grid_crf) (x : grid_x) (y : list nat),
  length (gr_data x) = (gr_h x * gr_w x * gr_c x)%nat -> (0 < gr_h x * gr_w x)%nat ->
  gr_c x <> gr_features g -> length y = (gr_h x * gr_w x)%nat ->
  grid_joint_feature g x (Discrete y) = Err ValueError.
Proof.
  intros g x y HL Hn Hc Hy. unfold grid_joint_feature, grid_graph, grid_features.
  destruct (Nat.eqb_spec (gr_features g) 0) as [|HF]; [reflexivity|]. unfold reshape.
  destruct (Nat.eqb_spec (length (gr_data x)) (length (gr_data x) / gr_features g * gr_features g)) as [E|]; [|reflexivity].
  cbn [bind]. unfold make_grid_edges. rewrite grid_lists.
  assert (K : (length (gr_data x) / gr_features g)%nat <> (gr_h x * gr_w x)%nat).
  { intro K. rewrite K, HL in E. apply Nat.mul_cancel_l in E; lia. }
  assert (R : forall es, g_joint_feature (grid_gcrf g) (GraphX (mtab (length (gr_data x) / gr_features g) (gr_features g)
      (fun i j => get1 (gr_data x) (i * gr_features g + j))) es) (Discrete y) = Err ValueError).
  { intro es. unfold g_joint_feature, g_check_x. cbn [gx_features mtab mcols grid_gcrf g_features].
    rewrite Nat.eqb_refl. cbn [ensure bind]. simpl g_marginals. rewrite Hy.
    replace (gr_h x * gr_w x =? length (gr_data x) / gr_features g)%nat with false by (symmetry; apply Nat.eqb_neq; lia). reflexivity. }
  destruct (gr_neighborhood g =? 4)%nat; [apply R|]. destruct (gr_neighborhood g =? 8)%nat; [apply R|reflexivity].
Qed.

(** ** directional grids *)
Lemma dir_edge_features_ok nb h w l : make_grid_edge_lists h w nb = Ok l ->
  edge_list_to_features l = Ok (mtab (length (concat l)) 2
     (fun e c => if (e <? length (g_right h w))%nat then ind (c =? 0)%nat else ind (c =? 1)%nat)).
Proof.
  rewrite grid_lists. destruct (nb =? 4)%nat; [|destruct (nb =? 8)%nat; [|discriminate]]; intro E; injection E as <-; reflexivity.
Qed.

Lemma edge_direction_features : forall (h w : nat) (es : list (nat * nat)) (l : list (list (nat * nat))),
  make_grid_edges h w 4 = Ok es -> make_grid_edge_lists h w 4 = Ok l ->
  exists ef, edge_list_to_features l = Ok ef /\ mat_ok ef /\ mrows ef = length es /\ mcols ef = 2%nat /\
    forall e, (e < length es)%nat ->
      let '(a, b) := nth e es (0, 0)%nat in
      (row_dist w a b = 0%nat /\ col_dist w a b = 1%nat /\ mget ef e 0 = 1 /\ mget ef e 1 = 0) \/
      (row_dist w a b = 1%nat /\ col_dist w a b = 0%nat /\ mget ef e 0 = 0 /\ mget ef e 1 = 1).
Proof.
  intros h w es l E El. assert (E' := El). apply dir_edge_features_ok in E'.
  assert (Ees : es = concat l). { unfold make_grid_edges in E. rewrite El in E. injection E as <-. reflexivity. }
  rewrite grid_lists in El. injection El as <-. eexists. split; [exact E'|]. split; [apply mtab_ok|].
  split; [rewrite Ees; reflexivity|]. split; [reflexivity|]. intros e He. rewrite <- Ees.
  destruct (nth e es (0, 0)%nat) as [a b] eqn:En. simpl concat in Ees. rewrite app_nil_r in Ees.
  rewrite !mget_mtab by (assumption || lia). rewrite Ees in En.
  destruct (Nat.ltb_spec e (length (g_right h w))) as [L|L].
  - left. rewrite app_nth1 in En by exact L.
    assert (Hin : In (a, b) (g_right h w)) by (rewrite <- En; apply nth_In, L).
    destruct (range_right _ _ _ _ Hin). apply in_right in Hin; [|assumption..]. unfold row_dist, col_dist, dist.
    split; [lia|]. split; [lia|]. split; reflexivity.
  - right. rewrite app_nth2 in En by exact L.
    assert (L2 : (e - length (g_right h w) < length (g_down h w))%nat) by (rewrite Ees, app_length in He; lia).
    assert (Hin : In (a, b) (g_down h w)) by (rewrite <- En; apply nth_In, L2).
    destruct (range_down _ _ _ _ Hin). apply in_down in Hin; [|assumption..]. unfold row_dist, col_dist, dist.
    split; [lia|]. split; [lia|]. split; reflexivity.
Qed.

Lemma directional_4_score : forall (S F : nat) (x : grid_x) (w : list Qc) (y : list nat) (es : list (nat * nat)),
  let g := GridCRF S F 4 in
  make_grid_edges (gr_h x) (gr_w x) 4 = Ok es ->
  (0 < F)%nat -> length (gr_data x) = (gr_h x * gr_w x * F)%nat ->
  length w = dir_size g -> labelling (gr_h x * gr_w x) S y ->
  exists U P psi,
    dir_unary g x w = Ok U /\ dir_pairwise g x w = Ok P /\
    dir_joint_feature g x (EDiscrete y) = Ok psi /\ length psi = dir_size g /\
    compute_energy U P es y = Ok (dot w psi) /\
    dot w psi =
      score (gr_h x * gr_w x) es
        (fun i s => unary_score F w (fun f => get1 (gr_data x) (i * F + f)) s)
        (fun e s t => edge_weight S F w
           (if (row_dist (gr_w x) (fst (nth e es (0, 0)%nat)) (snd (nth e es (0, 0)%nat)) =? 0)%nat then 0 else 1) s t)
        (lab y).
Proof.
  intros S F x w y es g E HF HL Hw Hy.
  assert (El : exists l, make_grid_edge_lists (gr_h x) (gr_w x) 4 = Ok l). { rewrite grid_lists. simpl. eauto. }
  destruct El as [l El]. destruct (edge_direction_features _ _ es l E El) as [ef [Ef [Of [Rf [Cf Gf]]]]].
  set (feats := mtab (gr_h x * gr_w x) F (fun i f => get1 (gr_data x) (i * F + f))).
  assert (Hg := grid_edges_sound _ _ _ _ E).
  assert (Efe : grid_features F x = Ok feats) by (apply grid_features_ok; assumption).
  assert (Eef : dir_edge_features g x = Ok ef). { unfold dir_edge_features. simpl gr_neighborhood. rewrite El. exact Ef. }
  destruct (ef_core_discrete (dir_efcrf g) feats es ef y w) as [psi [P1 [P2 [_ P4]]]]; try exact Hw; try exact Hy; try exact Hg; try exact Rf.
  { apply ef_check_declared_ok. reflexivity. } { reflexivity. } { exact Cf. }
  destruct (ef_unary_core_ok (dir_efcrf g) feats w eq_refl Hw) as [U [EU [OU [RU [CU GU]]]]].
  destruct (ef_pairwise_core_ok (dir_efcrf g) ef w Cf ltac:(simpl; lia) Hw) as [d [EP [LP GP]]].
  change (ef_states (dir_efcrf g)) with S in *. change (ef_features (dir_efcrf g)) with F in *.
  change (ef_edge_features (dir_efcrf g)) with 2%nat in *. change (mrows feats) with (gr_h x * gr_w x)%nat in *.
  assert (A : forall e s t, (e < length es)%nat -> edge_score 2 S F w (mget ef e) s t =
     edge_weight S F w (if (row_dist (gr_w x) (fst (nth e es (0, 0)%nat)) (snd (nth e es (0, 0)%nat)) =? 0)%nat then 0 else 1) s t).
  { intros e s t He. specialize (Gf e He). destruct (nth e es (0, 0)%nat) as [a b]. unfold edge_score.
    rewrite !sumn_S, sumn_O. simpl fst. simpl snd. destruct Gf as [[-> [_ [-> ->]]]|[-> [_ [-> ->]]]]; simpl Nat.eqb; cbv iota; ring. }
  assert (Escore : dot w psi = score (gr_h x * gr_w x) es
        (fun i s => unary_score F w (fun f => get1 (gr_data x) (i * F + f)) s)
        (fun e s t => edge_weight S F w
           (if (row_dist (gr_w x) (fst (nth e es (0, 0)%nat)) (snd (nth e es (0, 0)%nat)) =? 0)%nat then 0 else 1) s t)
        (lab y)).
  { rewrite P4. unfold score. f_equal.
    - apply sumn_ext. intros i Hi. unfold unary_score. apply sumn_ext. intros f Hf. f_equal. unfold feats. apply mget_mtab; assumption.
    - apply sumn_ext. intros e He. rewrite <- A by exact He. reflexivity. }
  exists U. eexists. exists psi.
  split. { unfold dir_unary. rewrite check_size_w_ok by exact Hw. cbn [bind]. simpl gr_features. rewrite Efe. cbn [bind].
           unfold dir_check_x. simpl. rewrite Nat.eqb_refl. exact EU. }
  split. { unfold dir_pairwise. rewrite check_size_w_ok by exact Hw. cbn [bind]. simpl gr_features. rewrite Efe. cbn [bind].
           unfold dir_check_x. cbn [gr_features g feats mcols mtab]. rewrite Nat.eqb_refl. cbn [ensure bind]. rewrite Eef. exact EP. }
  split. { unfold dir_joint_feature. simpl gr_features. rewrite Efe. cbn [bind].
           unfold dir_check_x. cbn [gr_features g feats mcols mtab]. rewrite Nat.eqb_refl. cbn [ensure bind]. simpl gr_neighborhood. rewrite E. cbn [bind].
           rewrite Eef. cbn [bind]. exact P1. }
  split; [exact P2|]. split; [|exact Escore].
  rewrite Rf. rewrite (compute_energy_pw3 U d es y (gr_h x * gr_w x) S) by (assumption || congruence).
  f_equal. rewrite Escore. apply score_ext; auto.
  - intros i Hi. rewrite GU; [|exact Hi|eapply labelling_lt; eauto]. unfold unary_score. apply sumn_ext. intros f Hf. f_equal. unfold feats. apply mget_mtab; assumption.
  - intros e a b He Ha Hb. rewrite GP; [|rewrite Rf; exact He|eapply labelling_lt; eauto|eapply labelling_lt; eauto]. apply A, He.
Qed.

Lemma directional_8_joint_feature : forall (S F : nat) (x : grid_x) (y : list nat),
  let g := GridCRF S F 8 in
  (0 < F)%nat -> length (gr_data x) = (gr_h x * gr_w x * F)%nat -> (0 < S)%nat ->
  labelling (gr_h x * gr_w x) S y ->
  exists psi, dir_joint_feature g x (EDiscrete y) = Ok psi /\
    length psi = (S * F + 2 * (S * S))%nat /\ length psi <> dir_size g.
Proof.
  intros S F x y g HF HL HS Hy.
  destruct (grid_edges_8 (gr_h x) (gr_w x)) as [es [E [_ [Hg _]]]].
  assert (El : exists l, make_grid_edge_lists (gr_h x) (gr_w x) 8 = Ok l). { rewrite grid_lists. simpl. eauto. }
  destruct El as [l El]. assert (Ef := dir_edge_features_ok _ _ _ _ El).
  assert (Ees : es = concat l). { unfold make_grid_edges in E. rewrite El in E. injection E as <-. reflexivity. }
  set (ef := mtab _ 2 _) in Ef.
  set (feats := mtab (gr_h x * gr_w x) F (fun i f => get1 (gr_data x) (i * F + f))).
  assert (Efe : grid_features F x = Ok feats) by (apply grid_features_ok; assumption).
  assert (Eef : dir_edge_features g x = Ok ef). { unfold dir_edge_features. simpl gr_neighborhood. rewrite El. exact Ef. }
  destruct (ef_core_discrete (EFCRF S F 2 [] []) feats es ef y (vzero (S * F + 2 * (S * S)))) as [psi [P1 [P2 _]]];
    try exact Hy; try exact Hg.
  { apply ef_check_declared_ok. reflexivity. } { reflexivity. } { reflexivity. }
  { rewrite Ees. reflexivity. } { rewrite vzero_length. reflexivity. }
  exists psi. split.
  { unfold dir_joint_feature. simpl gr_features. rewrite Efe. cbn [bind].
    unfold dir_check_x. cbn [gr_features g feats mcols mtab]. rewrite Nat.eqb_refl. cbn [ensure bind]. simpl gr_neighborhood. rewrite E. cbn [bind].
    rewrite Eef. cbn [bind]. exact P1. }
  split; [exact P2|]. rewrite P2. unfold dir_size, ef_size. simpl. nia.
Qed.
Lemma directional_8_inference : forall (solve : solver) (S F : nat) (x : grid_x) (w : list Qc),
  let g := GridCRF S F 8 in
  dir_pairwise g x w = Err ValueError /\ dir_inference solve g x w = Err ValueError.
Proof.
  intros solve S F x w g.
  assert (Hw : check_size_w (dir_size g) w = Ok tt \/ check_size_w (dir_size g) w = Err ValueError).
  { unfold check_size_w. destruct (_ =? _)%nat; auto. }
  assert (Hf : (exists f, grid_features F x = Ok f) \/ grid_features F x = Err ValueError).
  { unfold grid_features, reshape. destruct (F =? 0)%nat; auto. destruct (_ =? _)%nat; eauto. }
  assert (Hp : dir_pairwise g x w = Err ValueError).
  { unfold dir_pairwise. destruct Hw as [->| ->]; [|reflexivity]. cbn [bind]. simpl gr_features.
    destruct Hf as [[f ->]| ->]; [|reflexivity]. cbn [bind].
    unfold dir_check_x. destruct (_ =? _)%nat; [|reflexivity]. cbn [ensure bind].
    unfold dir_edge_features. simpl gr_neighborhood.
    assert (El : exists l, make_grid_edge_lists (gr_h x) (gr_w x) 8 = Ok l). { rewrite grid_lists. simpl. eauto. }
    destruct El as [l El]. rewrite El. cbn [bind]. rewrite (dir_edge_features_ok _ _ _ _ El). cbn [bind].
    unfold ef_pairwise_core. simpl ef_edge_features. change (4 =? 0)%nat with false. cbv iota.
    unfold reshape. destruct (_ =? _)%nat; [|reflexivity]. cbn [bind]. unfold mat_mul.
    cbn [mcols mrows mtab]. reflexivity. }
  split; [exact Hp|]. unfold dir_inference. rewrite Hp.
  unfold dir_unary. destruct Hw as [->| ->]; [|reflexivity]. cbn [bind]. simpl gr_features.
  destruct Hf as [[f Ef]| ->]; [|reflexivity]. rewrite Ef. cbn [bind].
  unfold dir_check_x. destruct (_ =? _)%nat; [|reflexivity]. cbn [ensure bind].
  unfold ef_unary_core, reshape. destruct (_ =? _)%nat; [|reflexivity]. cbn [bind]. unfold mat_mul. destruct (_ =? _)%nat; reflexivity.
Qed.

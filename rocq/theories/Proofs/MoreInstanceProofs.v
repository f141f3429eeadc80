(** Grids, edge features and multi-label models compute their structured prediction task. *)
From Verif Require Import Model.MoreInstances Spec.GraphSpec Spec.SolverSpec Spec.EdgeSpec Spec.LabelSpec Spec.GridSpec Spec.MoreTasks
  Proofs.Arrays Proofs.EnergyProofs Proofs.GraphCRFProofs Proofs.LossProofs Proofs.CRFProofs Proofs.MaxProdProofs Proofs.InstanceProofs
  Proofs.EdgeFeatureProofs Proofs.EdgeFeatureProofs2 Proofs.GridProofs Proofs.GridProofs2 Proofs.MultiLabelProofs.

(** ** GridCRF *)
Section Grid.
Variables (g : grid_crf) (cw : list Qc) (x : grid_x) (es : list (nat * nat)).
Hypothesis HF : (0 < gr_features g)%nat.
Hypothesis HL : length (gr_data x) = (gr_h x * gr_w x * gr_features g)%nat.
Hypothesis HE : make_grid_edges (gr_h x) (gr_w x) (gr_neighborhood g) = Ok es.
Let gx := GraphX (mtab (gr_h x * gr_w x) (gr_features g) (fun i f => get1 (gr_data x) (i * gr_features g + f))) es.
Let gc := grid_gcrf g.
Lemma grid_gx : grid_graph g x = Ok gx.
Proof. exact (grid_graph_ok g x es HF HL HE). Qed.
Lemma grid_valid : valid_x gc gx.
Proof. split; [apply mtab_ok|reflexivity|apply (grid_edges_sound _ _ _ _ HE)]. Qed.
Lemma grid_feat y : t_feat (grid_task g cw) x y = t_feat (g_task gc cw) gx y.
Proof. cbn [t_feat grid_task g_task]. unfold grid_joint_feature. rewrite grid_gx. reflexivity. Qed.
Lemma grid_implements solve y : length cw = gr_states g -> labelling (gr_h x * gr_w x) (gr_states g) y ->
  implements (grid_smodel solve g cw) (grid_task g cw) (g_size gc) x y.
Proof.
  intros Hc Hy. destruct (g_implements solve gc cw gx y grid_valid Hc Hy) as [_ [H2 H3]]. split; [exact Hy|]. split; [exact H2|].
  intros y' H'. destruct (H3 y' H') as [A [B C]]. rewrite grid_feat. split; [exact A|]. split; [|exact C].
  cbn [grid_smodel sm_joint]. unfold grid_joint_feature. rewrite grid_gx. exact B.
Qed.
Lemma grid_exact_laug solve y w : exact_solver_on solve (gr_h x * gr_w x) es -> length w = g_size gc -> (0 < gr_states g)%nat ->
  length cw = gr_states g -> labelling (gr_h x * gr_w x) (gr_states g) y -> exact_laug (grid_smodel solve g cw) (grid_task g cw) w x y.
Proof.
  intros HS HW HK Hc Hy. destruct (g_exact_laug solve gc cw gx y w HS grid_valid HW HK Hc Hy) as [yh [E [L M]]].
  exists yh. split; [|split; [exact L|]].
  - cbn [grid_smodel sm_laug]. unfold grid_loss_augmented_inference. rewrite grid_gx. cbn [bind]. cbn [g_smodel sm_laug] in E.
    change (grid_gcrf g) with gc. rewrite E. cbn [bind].
    unfold reshape_y. rewrite (proj1 L). cbn [gx gx_features mtab mrows]. rewrite Nat.eqb_refl. reflexivity.
  - intros y' H'. rewrite !grid_feat. apply M. exact H'.
Qed.
Lemma grid_exact_inference solve w : exact_solver_on solve (gr_h x * gr_w x) es -> length w = g_size gc ->
  (0 < gr_states g)%nat -> exact_inference (grid_smodel solve g cw) (grid_task g cw) w x.
Proof.
  intros HS HW HK. destruct (g_exact_inference solve gc cw gx w HS grid_valid HW HK) as [yh [E [L M]]].
  exists yh. split; [|split; [exact L|]].
  - cbn [grid_smodel sm_inference]. unfold grid_inference. rewrite grid_gx. cbn [bind]. cbn [g_smodel sm_inference] in E.
    change (grid_gcrf g) with gc. rewrite E. cbn [bind].
    unfold reshape_y. rewrite (proj1 L). cbn [gx gx_features mtab mrows]. rewrite Nat.eqb_refl. reflexivity.
  - intros y' H'. rewrite !grid_feat. apply M. exact H'.
Qed.
End Grid.

(** ** DirectionalGridCRF, 4 neighbours *)
Section Directional.
Variables (K F : nat) (cw : list Qc) (x : grid_x) (es : list (nat * nat)).
Let g := GridCRF K F 4.
Let n := (gr_h x * gr_w x)%nat.
Hypothesis HF : (0 < F)%nat.
Hypothesis HL : length (gr_data x) = (n * F)%nat.
Hypothesis HE : make_grid_edges (gr_h x) (gr_w x) 4 = Ok es.
Let sc (w : list Qc) (y : list nat) : Qc :=
  score n es (fun i s => unary_score F w (fun f => get1 (gr_data x) (i * F + f)) s)
        (fun e s t => edge_weight K F w
           (if (row_dist (gr_w x) (fst (nth e es (0, 0)%nat)) (snd (nth e es (0, 0)%nat)) =? 0)%nat then 0 else 1) s t)
        (lab y).
Lemma dir_feat y w : length w = dir_size g -> labelling n K y ->
  dir_joint_feature g x (EDiscrete y) = Ok (t_feat (dir_task g cw) x y) /\ length (t_feat (dir_task g cw) x y) = dir_size g /\
  dot w (t_feat (dir_task g cw) x y) = sc w y.
Proof.
  intros HW Hh. destruct (directional_4_score K F x w y es HE HF HL HW Hh) as [U [P [psi [_ [_ [E [L [_ V]]]]]]]].
  cbn [t_feat dir_task]. change g with (GridCRF K F 4). rewrite E. cbn [ok_or]. split; [reflexivity|]. split; [exact L|exact V].
Qed.
Lemma dir_potentials w : length w = dir_size g -> exists U P, dir_unary g x w = Ok U /\ dir_pairwise g x w = Ok P /\
  mat_ok U /\ mrows U = n /\ mcols U = K /\ pw_shape P (length es) K /\
  forall y, labelling n K y -> score n es (mget U) (pw_table P) (lab y) = dot w (t_feat (dir_task g cw) x y).
Proof.
  intros HW. assert (El : exists l, make_grid_edge_lists (gr_h x) (gr_w x) 4 = Ok l). { rewrite grid_lists. simpl. eauto. }
  destruct El as [l El]. destruct (edge_direction_features _ _ es l HE El) as [ef [Ef [Of [Rf [Cf Gf]]]]].
  set (feats := mtab n F (fun i f => get1 (gr_data x) (i * F + f))).
  assert (Hg := grid_edges_sound _ _ _ _ HE).
  assert (Efe : grid_features (gr_features g) x = Ok feats) by (apply (grid_features_ok x F HF HL)).
  assert (Eck : dir_check_x g feats = Ok tt). { unfold dir_check_x. cbn [feats mcols mtab g gr_features]. rewrite Nat.eqb_refl. reflexivity. }
  assert (Eef : dir_edge_features g x = Ok ef). { unfold dir_edge_features. cbn [g gr_neighborhood]. rewrite El. exact Ef. }
  destruct (ef_unary_core_ok (dir_efcrf g) feats w eq_refl HW) as [U [EU [OU [RU [CU GU]]]]].
  destruct (ef_pairwise_core_ok (dir_efcrf g) ef w Cf ltac:(simpl; lia) HW) as [t [EP [LP GP]]].
  change (ef_states (dir_efcrf g)) with K in *. change (ef_features (dir_efcrf g)) with F in *.
  change (ef_edge_features (dir_efcrf g)) with 2%nat in *. change (mrows feats) with n in *.
  assert (A : forall e s u, (e < length es)%nat -> edge_score 2 K F w (mget ef e) s u =
     edge_weight K F w (if (row_dist (gr_w x) (fst (nth e es (0, 0)%nat)) (snd (nth e es (0, 0)%nat)) =? 0)%nat then 0 else 1) s u).
  { intros e s u He. specialize (Gf e He). destruct (nth e es (0, 0)%nat) as [a b]. unfold edge_score.
    rewrite !sumn_S, sumn_O. simpl fst. simpl snd. destruct Gf as [[-> [_ [-> ->]]]|[-> [_ [-> ->]]]]; simpl Nat.eqb; cbv iota; ring. }
  assert (GU' : forall i s, (i < n)%nat -> (s < K)%nat -> mget U i s = unary_score F w (fun f => get1 (gr_data x) (i * F + f)) s).
  { intros i s Hi Hs. rewrite GU by assumption. unfold unary_score. apply sumn_ext. intros f Hf. f_equal. unfold feats. apply mget_mtab; assumption. }
  exists U. eexists. split; [unfold dir_unary; rewrite check_size_w_ok by exact HW; cbn [bind]; rewrite Efe; cbn [bind]; rewrite Eck; exact EU|].
  split; [unfold dir_pairwise; rewrite check_size_w_ok by exact HW; cbn [bind]; rewrite Efe; cbn [bind]; rewrite Eck; cbn [bind]; rewrite Eef; exact EP|].
  split; [exact OU|]. split; [exact RU|]. split; [exact CU|].
  split; [cbn [pw_shape]; rewrite LP, Rf; auto|].
  assert (GP' : forall e s u, (e < length es)%nat -> (s < K)%nat -> (u < K)%nat -> get2 (nth e t []) s u = edge_weight K F w
           (if (row_dist (gr_w x) (fst (nth e es (0, 0)%nat)) (snd (nth e es (0, 0)%nat)) =? 0)%nat then 0 else 1) s u).
  { intros e s u He Hs Hu. rewrite GP by (rewrite ?Rf; assumption). apply A, He. }
  intros y Hh. destruct (dir_feat y w HW Hh) as [_ [_ ->]]. unfold sc. cbn [pw_table].
  apply score_ext; try assumption.
  - intros i Hi. apply GU'; [exact Hi|]. apply (labelling_lt n); assumption.
  - intros e a b He Ha Hb. apply GP'; [exact He| |]; apply (labelling_lt n); assumption.
Qed.
Lemma dir_implements solve y : length cw = K -> labelling n K y -> implements (dir_smodel solve g cw) (dir_task g cw) (dir_size g) x y.
Proof.
  intros Hc Hy. split; [exact Hy|]. split; [apply hamming_refl|]. intros y' H'.
  destruct (dir_feat y' (vzero (dir_size g)) (vzero_length _) H') as [A [B _]]. split; [exact B|]. split; [exact A|].
  cbn [dir_smodel sm_tuple sm_loss t_loss dir_task]. rewrite (proj1 Hy). apply (loss_weighted n K); [exact Hc|exact Hy|exact (proj1 H')].
Qed.
Lemma dir_exact_laug solve y w : exact_on_tables solve n es -> length w = dir_size g -> (0 < K)%nat -> length cw = K ->
  labelling n K y -> exact_laug (dir_smodel solve g cw) (dir_task g cw) w x y.
Proof.
  intros HS HW HK Hc Hy. destruct (dir_potentials w HW) as [U [P [EU [EP [OU [RU [CU [SP SC]]]]]]]].
  destruct (loss_augment_ok U y cw _ _ RU CU Hc Hy) as [U' [EU' [OU' [RU' [CU' GU']]]]].
  destruct (HS U' P K) as [yh [E1 [L1 L2]]]; try assumption.
  exists yh. split; [|split; [exact L1|]].
  - cbn [dir_smodel sm_laug]. unfold dir_loss_augmented_inference. rewrite EU, EP. cbn [bind g gr_neighborhood]. rewrite HE. cbn [bind].
    rewrite EU'. cbn [bind]. rewrite E1. cbn [bind]. unfold reshape_y. rewrite (proj1 L1). fold n. rewrite Nat.eqb_refl. reflexivity.
  - assert (A : forall z, labelling n K z -> score n es (mget U') (pw_table P) (lab z) = dot w (t_feat (dir_task g cw) x z) + t_loss (dir_task g cw) y z).
    { intros z Hz. rewrite <- (SC z Hz). cbn [t_loss dir_task]. rewrite (proj1 Hy). unfold score, hamming.
      rewrite (sumn_ext n _ (fun i => mget U i (lab z i) + if (lab y i =? lab z i)%nat then 0 else get1 cw (lab y i))).
      - rewrite sumn_plus. ring.
      - intros i Hi. apply GU'; [exact Hi|]. apply (labelling_lt n); assumption. }
    intros y' H'. rewrite <- (A y' H'), <- (A yh L1). apply L2. exact H'.
Qed.
Lemma dir_exact_inference solve w : exact_on_tables solve n es -> length w = dir_size g -> (0 < K)%nat ->
  exact_inference (dir_smodel solve g cw) (dir_task g cw) w x.
Proof.
  intros HS HW HK. destruct (dir_potentials w HW) as [U [P [EU [EP [OU [RU [CU [SP SC]]]]]]]].
  destruct (HS U P K) as [yh [E1 [L1 L2]]]; try assumption.
  exists yh. split; [|split; [exact L1|]].
  - cbn [dir_smodel sm_inference]. unfold dir_inference. rewrite EU, EP. cbn [bind g gr_neighborhood]. rewrite HE. cbn [bind]. rewrite E1. cbn [bind].
    unfold reshape_y. rewrite (proj1 L1). fold n. rewrite Nat.eqb_refl. reflexivity.
  - intros y' H'. rewrite <- (SC y' H'), <- (SC yh L1). apply L2. exact H'.
Qed.
End Directional.

(** ** EdgeFeatureGraphCRF *)
Section Edge.
Variables (g : ef_crf) (cw : list Qc) (x : ef_x).
Hypothesis HX : valid_ex g x.
Hypothesis HD : (0 < ef_edge_features g)%nat.
Let n := mrows (ex_features x).
Lemma ef_feat y w : length w = ef_size g -> respects_symmetry (ef_states g) (ef_features g) (ef_sym g) (ef_anti g) w -> labelling n (ef_states g) y ->
  ef_joint_feature g x (EDiscrete y) = Ok (t_feat (ef_task g cw) x y) /\ length (t_feat (ef_task g cw) x y) = ef_size g /\
  exists U P, ef_unary g x w = Ok U /\ ef_pairwise g x w = Ok P /\ compute_energy U P (ex_edges x) y = Ok (dot w (t_feat (ef_task g cw) x y)).
Proof.
  intros HW HR Hy. destruct HX as [H1 H2 H3 H4 H5].
  destruct (ef_score_linear g x w y H1 HD H2 H3 H4 H5 HW Hy HR) as [U [P [psi [E1 [E2 [E3 [L [C _]]]]]]]].
  cbn [t_feat ef_task]. rewrite E3. cbn [ok_or]. split; [reflexivity|]. split; [exact L|]. eauto.
Qed.
Lemma ef_implements solve y : length cw = ef_states g -> labelling n (ef_states g) y -> implements (ef_smodel solve g cw) (ef_task g cw) (ef_size g) x y.
Proof.
  intros Hc Hy. split; [exact Hy|]. split; [apply hamming_refl|]. intros y' H'.
  destruct (ef_feat y' (vzero (ef_size g)) (vzero_length _) (respects_vzero _ _ _ _ _) H') as [A [B _]]. split; [exact B|]. split; [exact A|].
  cbn [ef_smodel sm_tuple sm_loss t_loss ef_task]. rewrite (proj1 Hy). apply (loss_weighted n (ef_states g)); [exact Hc|exact Hy|exact (proj1 H')].
Qed.
Lemma ef_exact_laug solve y w : exact_on_tables solve n (ex_edges x) -> length w = ef_size g -> (0 < ef_states g)%nat -> length cw = ef_states g ->
  respects_symmetry (ef_states g) (ef_features g) (ef_sym g) (ef_anti g) w ->
  labelling n (ef_states g) y -> exact_laug (ef_smodel solve g cw) (ef_task g cw) w x y.
Proof.
  intros HS HW HK Hc HR Hy. destruct HX as [H1 H2 H3 H4 H5].
  destruct (ef_loss_augmented_exact solve g cw x y w HS H1 HD HK H2 H3 H4 H5 HW Hc HR Hy) as [yh [psi [l [E [L [E2 [E3 M]]]]]]].
  exists yh. split; [exact E|]. split; [exact L|]. intros y' H'.
  assert (V : forall z, labelling n (ef_states g) z -> loss (Some cw) y z = Ok (t_loss (ef_task g cw) y z)).
  { intros z Hz. cbn [t_loss ef_task]. rewrite (proj1 Hy). apply (loss_weighted n (ef_states g)); [exact Hc|exact Hy|exact (proj1 Hz)]. }
  destruct (ef_feat y' w HW HR H') as [A _]. destruct (ef_feat yh w HW HR L) as [B _].
  rewrite B in E2. injection E2 as <-. rewrite (V yh L) in E3. injection E3 as <-. exact (M y' _ _ H' A (V y' H')).
Qed.
Lemma ef_exact_inference solve w : exact_on_tables solve n (ex_edges x) -> length w = ef_size g -> (0 < ef_states g)%nat ->
  respects_symmetry (ef_states g) (ef_features g) (ef_sym g) (ef_anti g) w -> exact_inference (ef_smodel solve g cw) (ef_task g cw) w x.
Proof.
  intros HS HW HK HR. destruct HX as [H1 H2 H3 H4 H5].
  destruct (ef_unary_ok g x w HX HW) as [U [EU [OU [RU [CU GU]]]]].
  destruct (ef_pairwise_ok g x w HX HD HW) as [d [EP [LP GP]]].
  destruct (HS U (Pw3 (length (ex_edges x)) (ef_states g) (ef_states g) d) (ef_states g)) as [yh [E [L M]]]; auto.
  { simpl. auto. }
  exists yh. split; [|split; [exact L|]].
  - cbn [ef_smodel sm_inference]. unfold ef_inference. rewrite check_size_w_ok by exact HW. cbn [bind]. rewrite EU. cbn [bind]. rewrite EP. exact E.
  - assert (A : forall z, labelling n (ef_states g) z -> score n (ex_edges x) (mget U) (pw_table (Pw3 (length (ex_edges x)) (ef_states g) (ef_states g) d)) (lab z) = dot w (t_feat (ef_task g cw) x z)).
    { intros z Hz. destruct (ef_score_linear g x w z H1 HD H2 H3 H4 H5 HW Hz HR) as [U1 [P1 [psi [_ [_ [E3 [_ [_ S]]]]]]]].
      cbn [t_feat ef_task]. rewrite E3. cbn [ok_or]. rewrite S. apply score_ext; try assumption.
      - intros i Hi. apply GU; [exact Hi|]. apply (labelling_lt n); assumption.
      - intros e a b He Ha Hb. cbn [pw_table]. apply GP; [exact He| |]; apply (labelling_lt n); assumption. }
    intros y' H'. rewrite <- (A y' H'), <- (A yh L). apply M, H'.
Qed.
End Edge.
(** nothing declared: every weight vector qualifies *)
Lemma respects_none K F w : respects_symmetry K F [] [] w.
Proof. split; intros i s t H; destruct H. Qed.

(** ** MultiLabelClf *)
Section Labels.
Variables (m : ml_clf) (x : list Qc).
Hypothesis HE : graph_edges (ml_labels m) (ml_edges m).
Hypothesis HX : length x = ml_features m.
Hypothesis HL : (2 <= ml_labels m)%nat.
Lemma ml_feat y : labelling (ml_labels m) 2 y ->
  ml_joint_feature m x (MDiscrete y) = Ok (t_feat (ml_task m) x y) /\ length (t_feat (ml_task m) x y) = ml_size m.
Proof.
  intros Hy. destruct (ml_joint_ok m x y (vzero (ml_size m)) HX (vzero_length _) Hy HE) as [psi [E [L _]]].
  cbn [t_feat ml_task]. rewrite E. split; [reflexivity|exact L].
Qed.
Lemma nth_repeat_lt' {A} (a d : A) n i : (i < n)%nat -> nth i (repeat a n) d = a.
Proof. revert i. induction n; intros i H; [lia|]. destruct i; [reflexivity|]. apply IHn. lia. Qed.
Lemma ml_loss_value y y' : labelling (ml_labels m) 2 y -> labelling (ml_labels m) 2 y' ->
  loss (Some (ml_class_weight m)) y y' = Ok (t_loss (ml_task m) y y').
Proof.
  intros [L B] [L' _]. assert (Hy : labelling (ml_labels m) (ml_labels m) y).
  { split; [exact L|]. eapply Forall_impl; [|exact B]. cbv beta. intros; lia. }
  rewrite (loss_weighted _ _ (ml_class_weight m) y y' (repeat_length _ _) Hy L'). cbn [t_loss ml_task]. rewrite L. f_equal. unfold hamming.
  apply sumn_ext. intros i Hi. destruct (lab y i =? lab y' i)%nat; [reflexivity|].
  unfold get1, ml_class_weight. apply nth_repeat_lt'. apply (labelling_lt _ _ _ _ Hy Hi).
Qed.
Lemma ml_implements solve y : labelling (ml_labels m) 2 y -> implements (ml_smodel solve m) (ml_task m) (ml_size m) x y.
Proof.
  intros Hy. split; [exact Hy|]. split; [apply hamming_refl|]. intros y' H'. destruct (ml_feat y' H') as [A B].
  split; [exact B|]. split; [exact A|]. apply ml_loss_value; assumption.
Qed.
Lemma ml_exact_laug solve y w : exact_on_tables solve (ml_labels m) (ml_edges m) -> length w = ml_size m ->
  labelling (ml_labels m) 2 y -> exact_laug (ml_smodel solve m) (ml_task m) w x y.
Proof.
  intros HS HW Hy. destruct (ml_loss_augmented_exact solve m x y w HS HE HX HW HL Hy) as [yh [psi [l [E [L [E2 [E3 M]]]]]]].
  exists yh. split; [exact E|]. split; [exact L|]. intros y' H'. destruct (ml_feat y' H') as [A _]. destruct (ml_feat yh L) as [B _].
  rewrite B in E2. injection E2 as <-. rewrite (ml_loss_value y yh Hy L) in E3. injection E3 as <-.
  exact (M y' _ _ H' A (ml_loss_value y y' Hy H')).
Qed.
Lemma ml_exact_inference solve w : exact_on_tables solve (ml_labels m) (ml_edges m) -> length w = ml_size m ->
  exact_inference (ml_smodel solve m) (ml_task m) w x.
Proof.
  intros HS HW. destruct (ml_inference_exact solve m x w HS HE HX HW) as [yh [psi [E [L [E2 M]]]]].
  exists yh. split; [exact E|]. split; [exact L|]. intros y' H'. destruct (ml_feat y' H') as [A _]. destruct (ml_feat yh L) as [B _].
  rewrite B in E2. injection E2 as <-. exact (M y' _ H' A).
Qed.
End Labels.

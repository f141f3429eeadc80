(** LatentDirectionalGridCRF; init_latent of both latent grids. *)
From Verif Require Import Model.LatentGrid Model.Instances Spec.GraphSpec Spec.SolverSpec Spec.EdgeSpec
  Proofs.Arrays Proofs.EnergyProofs Proofs.GraphCRFProofs Proofs.LossProofs Proofs.CRFProofs Proofs.MaxProdProofs Proofs.InstanceProofs
  Proofs.EdgeFeatureProofs Proofs.EdgeFeatureProofs2 Proofs.GridProofs Proofs.GridProofs2
  Proofs.LatentProofs Proofs.LatentProofs2 Proofs.LatentProofs3 Proofs.LatentProofs4 Proofs.LatentGridProofs Spec.LatentSpec Spec.LatentGridSpec.

Section Directional.
Variables (g : lg_crf) (x : grid_x) (es : list (nat * nat)).
Let d := LDG g 2 4.
Let n := (gr_h x * gr_w x)%nat.
Hypothesis HG : laid_out g.
Hypothesis HF : (0 < lg_features g)%nat.
Hypothesis HL : length (gr_data x) = (n * lg_features g)%nat.
Hypothesis HE : make_grid_edges (gr_h x) (gr_w x) 4 = Ok es.
(** score of the features *)
Definition dir_score (S F : nat) (x : grid_x) (es : list (nat * nat)) (w : list Qc) (h : list nat) : Qc :=
  score (gr_h x * gr_w x) es
        (fun i s => unary_score F w (fun f => get1 (gr_data x) (i * F + f)) s)
        (fun e s t => edge_weight S F w
           (if (row_dist (gr_w x) (fst (nth e es (0, 0)%nat)) (snd (nth e es (0, 0)%nat)) =? 0)%nat then 0 else 1) s t)
        (lab h).
Lemma ldg_feat h w : length w = ldg_size d -> labelling n (lg_states g) h ->
  ldg_joint_feature d x (EDiscrete h) = Ok (t_feat (ldg_task d) x h) /\ length (t_feat (ldg_task d) x h) = ldg_size d /\
  dot w (t_feat (ldg_task d) x h) = dir_score (lg_states g) (lg_features g) x es w h.
Proof.
  intros HW Hh. destruct (directional_4_score (lg_states g) (lg_features g) x w h es HE HF HL HW Hh) as [U [P [psi [_ [_ [E [L [_ V]]]]]]]].
  assert (E' : ldg_joint_feature d x (EDiscrete h) = Ok psi).
  { revert E. unfold dir_joint_feature, ldg_joint_feature, ldg_features. cbn [gr_features]. change (lg_features (dg_lg d)) with (lg_features g).
    destruct (grid_features (lg_features g) x) as [f|]; [|intros Q; exact Q]. cbn [bind]. unfold dir_check_x. cbn [gr_features].
    destruct (mcols f =? lg_features g)%nat; intros Q; exact Q. }
  cbn [t_feat ldg_task]. rewrite E'. cbn [ok_or]. split; [reflexivity|]. split; [exact L|exact V].
Qed.
Lemma ldg_potentials w : length w = ldg_size d -> exists U P, ldg_unary d x w = Ok U /\ ldg_pairwise d x w = Ok P /\ ldg_edges d x = Ok es /\
  mat_ok U /\ mrows U = n /\ mcols U = lg_states g /\ pw_shape P (length es) (lg_states g) /\
  (forall i s, (i < n)%nat -> (s < lg_states g)%nat -> mget U i s = unary_score (lg_features g) w (fun f => get1 (gr_data x) (i * lg_features g + f)) s) /\
  (forall e s t, (e < length es)%nat -> (s < lg_states g)%nat -> (t < lg_states g)%nat -> pw_table P e s t = edge_weight (lg_states g) (lg_features g) w
           (if (row_dist (gr_w x) (fst (nth e es (0, 0)%nat)) (snd (nth e es (0, 0)%nat)) =? 0)%nat then 0 else 1) s t) /\
  forall h, labelling n (lg_states g) h -> score n es (mget U) (pw_table P) (lab h) = dot w (t_feat (ldg_task d) x h).
Proof.
  intros HW. assert (El : exists l, make_grid_edge_lists (gr_h x) (gr_w x) 4 = Ok l). { rewrite grid_lists. simpl. eauto. }
  destruct El as [l El]. destruct (edge_direction_features _ _ es l HE El) as [ef [Ef [Of [Rf [Cf Gf]]]]].
  set (F := lg_features g) in *.
  set (feats := mtab n F (fun i f => get1 (gr_data x) (i * F + f))).
  assert (Hg := grid_edges_sound _ _ _ _ HE).
  assert (Efe : ldg_features d x = Ok feats).
  { unfold ldg_features. change (lg_features (dg_lg d)) with F. rewrite (grid_features_ok x F HF HL). cbn [bind mcols mtab]. rewrite Nat.eqb_refl. reflexivity. }
  assert (Eef : ldg_edge_feats d x = Ok ef). { unfold ldg_edge_feats. change (dg_nb d) with 4%nat. rewrite El. exact Ef. }
  destruct (ef_unary_core_ok (ldg_ef d) feats w eq_refl HW) as [U [EU [OU [RU [CU GU]]]]].
  destruct (ef_pairwise_core_ok (ldg_ef d) ef w Cf ltac:(simpl; lia) HW) as [t [EP [LP GP]]].
  change (ef_states (ldg_ef d)) with (lg_states g) in *. change (ef_features (ldg_ef d)) with F in *.
  change (ef_edge_features (ldg_ef d)) with 2%nat in *. change (mrows feats) with n in *.
  assert (A : forall e s u, (e < length es)%nat -> edge_score 2 (lg_states g) F w (mget ef e) s u =
     edge_weight (lg_states g) F w (if (row_dist (gr_w x) (fst (nth e es (0, 0)%nat)) (snd (nth e es (0, 0)%nat)) =? 0)%nat then 0 else 1) s u).
  { intros e s u He. specialize (Gf e He). destruct (nth e es (0, 0)%nat) as [a b]. unfold edge_score.
    rewrite !sumn_S, sumn_O. simpl fst. simpl snd. destruct Gf as [[-> [_ [-> ->]]]|[-> [_ [-> ->]]]]; simpl Nat.eqb; cbv iota; ring. }
  assert (GU' : forall i s, (i < n)%nat -> (s < lg_states g)%nat -> mget U i s = unary_score F w (fun f => get1 (gr_data x) (i * F + f)) s).
  { intros i s Hi Hs. rewrite GU by assumption. unfold unary_score. apply sumn_ext. intros f Hf. f_equal. unfold feats. apply mget_mtab; assumption. }
  exists U. eexists. split; [unfold ldg_unary; rewrite check_size_w_ok by exact HW; cbn [bind]; rewrite Efe; exact EU|].
  split; [unfold ldg_pairwise; rewrite check_size_w_ok by exact HW; cbn [bind]; rewrite Efe; cbn [bind]; rewrite Eef; exact EP|].
  split; [exact HE|]. split; [exact OU|]. split; [exact RU|]. split; [exact CU|].
  split; [cbn [pw_shape]; rewrite LP, Rf; auto|].
  assert (GP' : forall e s u, (e < length es)%nat -> (s < lg_states g)%nat -> (u < lg_states g)%nat -> get2 (nth e t []) s u = edge_weight (lg_states g) F w
           (if (row_dist (gr_w x) (fst (nth e es (0, 0)%nat)) (snd (nth e es (0, 0)%nat)) =? 0)%nat then 0 else 1) s u).
  { intros e s u He Hs Hu. rewrite GP by (rewrite ?Rf; assumption). apply A, He. }
  split; [exact GU'|]. split; [exact GP'|]. intros h Hh. destruct (ldg_feat h w HW Hh) as [_ [_ ->]]. unfold dir_score. cbn [pw_table].
  apply score_ext; try assumption.
  - intros i Hi. apply GU'; [exact Hi|]. apply (labelling_lt n); assumption.
  - intros e a b He Ha Hb. apply GP'; [exact He| |]; apply (labelling_lt n); assumption.
Qed.
Lemma ldg_implements solve h : labelling n (lg_states g) h -> implements (ldg_smodel solve d) (ldg_task d) (ldg_size d) x h.
Proof.
  intros Hh. split; [exact Hh|]. split; [apply hamming_refl|]. intros h' H'.
  destruct (ldg_feat h' (vzero (ldg_size d)) (vzero_length _) H') as [A [B _]]. split; [exact B|]. split; [exact A|].
  cbn [ldg_smodel sm_tuple sm_loss]. apply (lg_loss_value g HG n); assumption.
Qed.
Lemma ldg_exact_laug solve h w : exact_on_tables solve n es -> length w = ldg_size d -> (0 < lg_states g)%nat ->
  labelling n (lg_states g) h -> exact_laug (ldg_smodel solve d) (ldg_task d) w x h.
Proof.
  intros HS HW HK Hh. destruct (ldg_potentials w HW) as [U [P [EU [EP [EE [OU [RU [CU [SP [_ [_ SC]]]]]]]]]]].
  destruct (augment_all g HG n h U Hh OU RU CU) as [U' [EA [O [R [C [_ V]]]]]].
  destruct (HS U' P (lg_states g)) as [hh [E1 [L1 L2]]]; try assumption.
  exists hh. split; [|split; [exact L1|]].
  - cbn [ldg_smodel sm_laug]. unfold ldg_loss_augmented_inference. rewrite EU, EP, EE. cbn [bind]. change (dg_lg d) with g. rewrite EA. cbn [bind]. rewrite E1. cbn [bind].
    unfold reshape_y. rewrite (proj1 L1). fold n. rewrite Nat.eqb_refl. reflexivity.
  - intros h' H'. cbn [t_loss ldg_task]. change (lg_counts (dg_lg d)) with (lg_counts g). rewrite <- (SC h' H'), <- (SC hh L1), <- (V _ _ _ H'), <- (V _ _ _ L1). apply L2. exact H'.
Qed.
Lemma ldg_exact_inference solve w : exact_on_tables solve n es -> length w = ldg_size d -> (0 < lg_states g)%nat ->
  exact_inference (ldg_smodel solve d) (ldg_task d) w x.
Proof.
  intros HS HW HK. destruct (ldg_potentials w HW) as [U [P [EU [EP [EE [OU [RU [CU [SP [_ [_ SC]]]]]]]]]]].
  destruct (HS U P (lg_states g)) as [hh [E1 [L1 L2]]]; try assumption.
  exists hh. split; [|split; [exact L1|]].
  - cbn [ldg_smodel sm_inference]. unfold ldg_inference. rewrite EU, EP, EE. cbn [bind]. rewrite E1. cbn [bind].
    unfold reshape_y. rewrite (proj1 L1). fold n. rewrite Nat.eqb_refl. reflexivity.
  - intros h' H'. rewrite <- (SC h' H'), <- (SC hh L1). apply L2. exact H'.
Qed.
Lemma ldg_completion U P w y h : length y = n -> (forall h, labelling n (lg_states g) h -> score n es (mget U) (pw_table P) (lab h) = dot w (t_feat (ldg_task d) x h)) ->
  best_explanation (lg_counts g) n es (mget U) (pw_table P) y h -> best_completion (ldg_task d) (grid_explains (lg_counts g)) w x y h.
Proof.
  intros HY SC [H1 H2]. split; [exact H1|]. intros h' H'. specialize (H2 h' H').
  rewrite <- (SC h'), <- (SC h) by (apply (explains_labelling _ _ y); assumption). exact H2.
Qed.
Lemma ldg_latent_run solve y w U P : ldg_unary d x w = Ok U -> ldg_pairwise d x w = Ok P -> mat_ok U -> mrows U = n -> mcols U = lg_states g ->
  (0 < n)%nat -> (0 < lg_states g)%nat -> length y = n ->
  exists M, 1 <= M /\ ldg_latent solve d x y w =
    (let! h := solve (forbid g y U M) P es in let! h := settle g y h in let! _ := ensure (length h =? length y)%nat ValueError in Ok h).
Proof.
  intros EU EP OU RU CU HN HS HY.
  assert (HR : exists q, In q (ravel U)).
  { exists (mget U 0 0). unfold ravel, mget, get2, get1. apply in_concat. exists (nth 0 (mdat U) []). destruct OU as [O1 O2].
    assert (I : In (nth 0 (mdat U) []) (mdat U)) by (apply nth_In; rewrite O1, RU; exact HN). split; [exact I|]. apply nth_In.
    rewrite Forall_forall in O2. rewrite (O2 _ I), CU. exact HS. }
  assert (exists mx, np_max (ravel U) = Ok mx) as [mx Emx].
  { apply np_max_ok. destruct HR as [q I]. destruct (ravel U); [destruct I|cbn; lia]. }
  exists (Qcmax mx 1). split; [unfold Qcmax; destruct (Qcleb_spec mx 1); qclra|].
  unfold ldg_latent. rewrite EU. cbn [bind]. rewrite Emx. cbn [bind]. change (dg_lg d) with g.
  destruct HG as [_ [HM _]]. rewrite RU, CU, HY, HM, !Nat.eqb_refl. cbn [andb ensure bind].
  rewrite EP. cbn [bind]. change (ldg_edges d x) with (make_grid_edges (gr_h x) (gr_w x) 4). rewrite HE. cbn [bind].
  unfold forbid. rewrite RU, CU. destruct (solve _ P es) as [h|]; [|reflexivity]. cbn [bind]. unfold settle.
  destruct (label_from_latent g h) as [ls|]; [|reflexivity]. cbn [bind]. destruct (mismatch ls y) as [df|]; [|reflexivity]. cbn [bind]. reflexivity.
Qed.
Lemma ldg_latent_best solve y w r : exact_on_tables solve n es -> length w = ldg_size d -> (0 < n)%nat -> (0 < lg_states g)%nat ->
  labelling n (lg_labels g) y -> ldg_latent solve d x y w = Ok r ->
  best_completion (ldg_task d) (grid_explains (lg_counts g)) w x y r \/ r = map (offset (lg_counts g)) y.
Proof.
  intros HS HW HN HK HY E. destruct (ldg_potentials w HW) as [U [P [EU [EP [EE [OU [RU [CU [SP [_ [_ SC]]]]]]]]]]].
  destruct (ldg_latent_run solve y w U P EU EP OU RU CU HN HK (proj1 HY)) as [M [M1 EL]].
  destruct (table_solved g n es U P y M solve RU CU SP HS HK) as [h [Eh Mh]].
  rewrite EL, Eh in E. cbn [bind] in E. apply bind_ok in E. destruct E as [r' [E1 E]]. apply bind_ok in E. destruct E as [_ [_ E]]. injection E as ->.
  destruct (table_best g n es U P y M HG RU CU HK (proj1 HY) h r Mh) as [H|H]; [|exact E1| |right; exact H].
  - apply Forall_impl with (2 := proj2 HY). intros l Hl. cbv beta in *. lia.
  - left. apply (ldg_completion U P); [apply HY|exact SC|exact H].
Qed.
Lemma ldg_latent_exact solve cluster y w B B' : exact_on_tables solve n es -> length w = ldg_size d -> (0 < n)%nat ->
  labelling n (lg_labels g) y -> Forall (fun c => (0 < c)%nat) (lg_counts g) ->
  (forall i s, (i < n)%nat -> (s < lg_states g)%nat -> - B <= unary_score (lg_features g) w (fun f => get1 (gr_data x) (i * lg_features g + f)) s /\
     unary_score (lg_features g) w (fun f => get1 (gr_data x) (i * lg_features g + f)) s <= B) ->
  (forall k s t, (k < 2)%nat -> (s < lg_states g)%nat -> (t < lg_states g)%nat -> - B' <= edge_weight (lg_states g) (lg_features g) w k s t /\
     edge_weight (lg_states g) (lg_features g) w k s t <= B') ->
  ofN n * (B + B) + ofN (length es) * (B' + B') < ofN 100 ->
  latent_exact (ldg_lmodel solve cluster d) (ldg_task d) (grid_explains (lg_counts g)) (ldg_size d) w (x, y).
Proof.
  intros HS HW HN HY HC HU HP HSM. assert (LC : length (lg_counts g) = lg_labels g) by apply HG.
  pose proof (counts_pos g y HG HC (proj2 HY)) as HCY.
  assert (X0 : explains (lg_counts g) (map (offset (lg_counts g)) y) y) by (apply first_explains; rewrite LC; exact HCY).
  assert (HX : forall h, explains (lg_counts g) h y -> labelling n (lg_states g) h).
  { intros h' H'. apply (explains_labelling _ _ y); [exact H'|apply HY]. }
  assert (HK : (0 < lg_states g)%nat).
  { pose proof (HX _ X0) as Q. pose proof (labelling_lt _ _ _ 0%nat Q HN). lia. }
  destruct (ldg_potentials w HW) as [U [P [EU [EP [EE [OU [RU [CU [SP [VU [VP SC]]]]]]]]]]].
  destruct (ldg_latent_run solve y w U P EU EP OU RU CU HN HK (proj1 HY)) as [M [M1 EL]].
  destruct (table_solved g n es U P y M solve RU CU SP HS HK) as [h [Eh Mh]].
  destruct (table_small g n es U P y M HG (grid_edges_sound _ _ _ _ HE) RU CU HK (proj1 HY) h B B' Mh HN M1 HCY) as [S1 S2].
  { intros i s Hi Hs. rewrite VU by assumption. apply HU; assumption. }
  { intros e s u He Hs Hu. rewrite VP by assumption. apply HP; [destruct (_ =? 0)%nat; lia|assumption|assumption]. }
  { exact HSM. }
  split; [split; [exists (map (offset (lg_counts g)) y); exact X0|split]|split].
  - intros h' H'. apply ldg_implements. apply HX. exact H'.
  - intros h1 h2 z Hh H' _. cbn [fst snd] in *. unfold grid_explains in *. cbn [t_loss ldg_task]. change (dg_lg d) with g. unfold label_distance. rewrite (explains_length _ _ _ Hh), (explains_length _ _ _ H').
    unfold hamming. apply sumn_ext. intros i Hi. rewrite (block_owner _ _ _ (explains_lab _ _ _ Hh i Hi)), (block_owner _ _ _ (explains_lab _ _ _ H' i Hi)). reflexivity.
  - exists h. split; [|apply (ldg_completion U P); [apply HY|exact SC|exact S2]]. cbn [ldg_lmodel lm_latent fst snd]. rewrite EL, Eh. cbn [bind]. rewrite S1. cbn [bind].
    rewrite (explains_length _ _ _ (proj1 S2)), Nat.eqb_refl. reflexivity.
  - intros h' H'. apply ldg_exact_laug; try assumption. apply HX. exact H'.
Qed.
End Directional.
Lemma ldg_latent_explains d solve x y w r : laid_out (dg_lg d) ->
  Forall (fun l => (l < lg_labels (dg_lg d))%nat) y -> Forall (fun c => (0 < c)%nat) (lg_counts (dg_lg d)) ->
  ldg_latent solve d x y w = Ok r -> explains (lg_counts (dg_lg d)) r y.
Proof.
  intros HG HY HC E. unfold ldg_latent in E. repeat (apply bind_ok in E; destruct E as [? [? E]]).
  match goal with H : label_from_latent _ ?h = Ok _ |- _ => apply (settle_explains (dg_lg d) y h r HG (counts_pos _ y HG HC HY)); unfold settle; rewrite H end.
  match goal with H : mismatch _ _ = Ok _ |- _ => cbn [bind]; rewrite H end. cbn [bind]. rewrite <- E. assumption.
Qed.

(** any other neighborhood *)
Lemma ldg_pairwise_fails g x w : ldg_pairwise (LDG g 4 4) x w = Err ValueError.
Proof.
  unfold ldg_pairwise, check_size_w. destruct (_ =? _)%nat; [|reflexivity]. cbn [ensure bind].
  unfold ldg_features, grid_features. destruct (_ =? 0)%nat; [reflexivity|]. unfold reshape at 1. destruct (_ =? _)%nat; [|reflexivity]. cbn [bind mcols mtab]. rewrite Nat.eqb_refl. cbn [ensure bind].
  unfold ldg_edge_feats. change (dg_nb (LDG g 4 4)) with 4%nat.
  assert (El : exists l, make_grid_edge_lists (gr_h x) (gr_w x) 4 = Ok l). { rewrite grid_lists. simpl. eauto. }
  destruct El as [l El]. rewrite El. cbn [bind]. rewrite (dir_edge_features_ok _ _ _ _ El). cbn [bind].
  unfold ef_pairwise_core. change (ef_edge_features (ldg_ef (LDG g 4 4))) with 4%nat. change (4 =? 0)%nat with false. cbv iota.
  unfold reshape. destruct (_ =? _)%nat; [|reflexivity]. cbn [bind]. unfold mat_mul. cbn [mcols mrows mtab]. reflexivity.
Qed.
Lemma ldg_unary_cases g k x w : (exists U, ldg_unary (LDG g k 4) x w = Ok U) \/ ldg_unary (LDG g k 4) x w = Err ValueError.
Proof.
  unfold ldg_unary, check_size_w. destruct (_ =? _)%nat; [|right; reflexivity]. cbn [ensure bind].
  unfold ldg_features, grid_features. destruct (_ =? 0)%nat; [right; reflexivity|]. unfold reshape at 1 2. destruct (_ =? _)%nat; [|right; reflexivity]. cbn [bind mcols mtab]. rewrite Nat.eqb_refl. cbn [ensure bind].
  unfold ef_unary_core, reshape. destruct (_ =? _)%nat; [|right; reflexivity]. cbn [bind]. unfold mat_mul. destruct (_ =? _)%nat; [left; eexists; reflexivity|right; reflexivity].
Qed.
Lemma np_max_cases l : (exists m, np_max l = Ok m) \/ np_max l = Err ValueError.
Proof. destruct l; [right; reflexivity|]. left. eexists. reflexivity. Qed.
Lemma ldg_other solve g x w : ldg_inference solve (LDG g 4 4) x w = Err ValueError /\
  (forall h, ldg_loss_augmented_inference solve (LDG g 4 4) x h w = Err ValueError) /\
  (forall y, ldg_latent solve (LDG g 4 4) x y w = Err ValueError \/ ldg_latent solve (LDG g 4 4) x y w = Err IndexError).
Proof.
  unfold ldg_inference, ldg_loss_augmented_inference, ldg_latent. rewrite ldg_pairwise_fails.
  destruct (ldg_unary_cases g 4 x w) as [[U ->]| ->]; cbn [bind]; [|auto]. split; [reflexivity|]. split; [reflexivity|]. intros y.
  destruct (np_max_cases (ravel U)) as [[m ->]| ->]; cbn [bind]; [|left; reflexivity].
  destruct (_ && _)%bool; cbn [ensure bind]; [left|right]; reflexivity.
Qed.
Lemma ldg_other_joint g x h : (0 < lg_features g)%nat -> length (gr_data x) = (gr_h x * gr_w x * lg_features g)%nat -> (0 < lg_states g)%nat ->
  labelling (gr_h x * gr_w x) (lg_states g) h ->
  exists psi, ldg_joint_feature (LDG g 4 4) x (EDiscrete h) = Ok psi /\
    length psi = (lg_states g * lg_features g + 2 * (lg_states g * lg_states g))%nat /\ length psi <> ldg_size (LDG g 4 4).
Proof.
  intros HF HL HS Hh. destruct (grid_edges_4 (gr_h x) (gr_w x)) as [es [E [_ [Hg _]]]].
  assert (El : exists l, make_grid_edge_lists (gr_h x) (gr_w x) 4 = Ok l). { rewrite grid_lists. simpl. eauto. }
  destruct El as [l El]. assert (Ef := dir_edge_features_ok _ _ _ _ El).
  assert (Ees : es = concat l). { unfold make_grid_edges in E. rewrite El in E. injection E as <-. reflexivity. }
  set (ef := mtab _ 2 _) in Ef. set (F := lg_features g) in *. set (k := lg_states g) in *.
  set (feats := mtab (gr_h x * gr_w x) F (fun i f => get1 (gr_data x) (i * F + f))).
  destruct (ef_core_discrete (EFCRF k F 2 [] []) feats es ef h (vzero (k * F + 2 * (k * k)))) as [psi [P1 [P2 _]]]; try exact Hh; try exact Hg.
  { apply ef_check_declared_ok. reflexivity. } { reflexivity. } { reflexivity. }
  { rewrite Ees. reflexivity. } { rewrite vzero_length. reflexivity. }
  exists psi. split.
  { unfold ldg_joint_feature, ldg_features. change (lg_features (dg_lg (LDG g 4 4))) with F. rewrite (grid_features_ok x F HF HL). cbn [bind mcols mtab]. rewrite Nat.eqb_refl. cbn [ensure bind].
    unfold ldg_edges, ldg_edge_feats. change (dg_nb (LDG g 4 4)) with 4%nat. rewrite E, El. cbn [bind]. rewrite Ef. cbn [bind]. exact P1. }
  split; [exact P2|]. rewrite P2. unfold ldg_size, ef_size. cbn [ldg_ef ef_states ef_features ef_edge_features dg_lg dg_edge_features]. fold k F. nia.
Qed.

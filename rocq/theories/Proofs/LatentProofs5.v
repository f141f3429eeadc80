(** Fallback of latent on bad labels; epochs of latent subgradient learning; concrete cases. *)
From Coq Require Import ZArith.
From Verif Require Import Model.LatentGraph Model.LatentLearner Model.SubgradientLatent Model.ChainCRF Spec.GraphSpec Spec.SolverSpec
  Proofs.Arrays Proofs.EnergyProofs Proofs.GraphCRFProofs Proofs.LossProofs Proofs.CRFProofs Proofs.ChainProofs Proofs.LearnerProofs
  Proofs.LatentProofs Proofs.LatentProofs2 Proofs.LatentProofs3 Proofs.LatentProofs4 Spec.SubgradientSpec Spec.LatentSpec.

Lemma explains_in counts h y l : explains counts h y -> In l y -> (l < length counts)%nat /\ (0 < nth l counts 0)%nat.
Proof.
  intros H. induction H as [|s l' h y H1 H2 IH]; intros HI; [destruct HI|]. destruct HI as [->|HI]; [|exact (IH HI)].
  destruct H1 as [A B]. split; [exact A|]. rewrite offset_S in B by exact A. lia.
Qed.
Lemma latent_bad_label g x w y solve : laid_out g -> valid_x (lg_graph g) x -> length w = g_size (lg_graph g) -> length y = mrows (gx_features x) ->
  (0 < mrows (gx_features x))%nat -> (0 < lg_states g)%nat -> Forall (fun l => (l <= lg_labels g)%nat) y ->
  (forall U P, mat_ok U -> mat_ok P -> mrows U = mrows (gx_features x) -> mcols U = lg_states g -> mrows P = lg_states g -> mcols P = lg_states g ->
     exists h, solve U (Pw2 P) (gx_edges x) = Ok h /\ labelling (mrows (gx_features x)) (lg_states g) h) ->
  In (lg_labels g) y -> lg_latent solve g x y w = Ok (map (offset (lg_counts g)) y) /\ In (lg_states g) (map (offset (lg_counts g)) y).
Proof.
  intros HG HX HW HY HN HS HB HSO HI. assert (HL : length (lg_counts g) = lg_labels g) by apply HG.
  destruct (latent_run g HG x w y HX HW HY HN HS solve) as [U [P [M [E [M1 [OU [RU [CU [OP [RP [CP [HM R]]]]]]]]]]]].
  destruct (HSO (forbid g y U M) P) as [h [E1 [L1 L2]]]; try assumption; try apply mtab_ok.
  split.
  - rewrite R, E1. cbn [bind]. rewrite settle_inconsistent; [|assumption|exact L2|lia|intros H; destruct (explains_in _ _ _ _ H HI); lia].
    apply fallback_ok. rewrite HL. exact HB.
  - apply in_map_iff. exists (lg_labels g). split; [|exact HI]. rewrite offset_all by lia. reflexivity.
Qed.

(** ** epochs *)
Lemma online_visits {X Y} prm (m : lmodel X Y) n lr : forall S st pos obj st' pos' obj', lsg_online prm m n lr S st pos obj = Ok (st', pos', obj') <->
  exists V, map (fun v => fst (fst v)) V = S /\ lsg_visits prm m n lr st V /\ st' = last (map (fun v => snd (fst v)) V) st /\
    pos' = (pos + length (filter (fun v => Qcltb 0 (snd v)) V))%nat /\ obj' = obj + lsum (map (fun v => Qcmax (snd v) 0) V).
Proof.
  induction S as [|p S IH]; intros st pos obj st' pos' obj'; cbn [lsg_online].
  - split.
    + intros H. exists []. cbn. assert (st = st' /\ pos = pos' /\ obj = obj') as [-> [-> ->]] by (repeat split; congruence). repeat split; [lia|ring].
    + intros [V [H1 [H2 [H3 [H4 H5]]]]]. destruct V; [|discriminate H1]. cbn in *. subst. f_equal. f_equal; [f_equal; lia|ring].
  - split.
    + intros H. apply bind_ok in H. destruct H as [[s1 sl] [E1 H]]. cbn [fst snd] in H. apply IH in H. destruct H as [V [H1 [H2 [H3 [H4 H5]]]]].
      exists ((p, s1, sl) :: V). cbn [map fst snd lsg_visits filter lsum]. split; [congruence|]. split; [split; assumption|]. split.
      * rewrite H3. destruct V as [|v V]; [reflexivity|]. cbn [map]. clear. generalize (snd (fst v)) (map (fun v : X * Y * sg_state * Qc => snd (fst v)) V). intros a l. revert a. induction l as [|b l IH]; intros a; [reflexivity|].
        change (last (a :: b :: l) s1) with (last (b :: l) s1). change (last (s1 :: a :: b :: l) st) with (last (s1 :: b :: l) st). rewrite (IH b). reflexivity.
      * split; [|rewrite H5; ring]. rewrite H4. destruct (Qcltb 0 sl); cbn [length]; lia.
    + intros [V [H1 [H2 [H3 [H4 H5]]]]]. destruct V as [|[[q s1] sl] V]; [discriminate H1|]. cbn [map fst snd lsg_visits filter lsum] in *.
      destruct H2 as [H2 H2']. assert (q = p) by congruence. subst q. rewrite H2. cbn [bind fst snd]. apply IH. exists V. split; [congruence|]. split; [exact H2'|]. split.
      * rewrite H3. destruct V as [|v V]; [reflexivity|]. cbn [map]. clear. generalize (snd (fst v)) (map (fun v : X * Y * sg_state * Qc => snd (fst v)) V). intros a l. revert a. induction l as [|b l IH]; intros a; [reflexivity|].
        change (last (a :: b :: l) s1) with (last (b :: l) s1). change (last (s1 :: a :: b :: l) st) with (last (s1 :: b :: l) st). rewrite <- (IH b). reflexivity.
      * split; [|rewrite H5; ring]. rewrite H4. destruct (Qcltb 0 sl); cbn [length]; lia.
Qed.
Lemma lsg_loop_stop {X Y} prm (m : lmodel X Y) lr S : sg_jobs prm = 1%Z -> forall k st c st' c', lsg_loop prm m lr S k st c = Ok (st', c') ->
  (length c <= length c' <= length c + k)%nat /\ ((length c' < length c + k)%nat -> sg_break prm = true /\ exists st0 V, map (fun v => fst (fst v)) V = S /\
    lsg_visits prm m (length S) lr st0 V /\ st' = last (map (fun v => snd (fst v)) V) st0 /\ Forall (fun v => snd v <= 0) V).
Proof.
  intros HJ. induction k as [|k IH]; intros st c st' c' H; cbn [lsg_loop] in H.
  - assert (c = c') by congruence. subst c'. split; [lia|lia].
  - apply bind_ok in H. destruct H as [[[s1 pos] obj] [E1 H]]. destruct ((pos =? 0)%nat && sg_break prm)%bool eqn:B.
    + assert (s1 = st' /\ c = c') as [-> ->] by (split; congruence). split; [lia|]. intros _. apply andb_true_iff in B. destruct B as [B1 B2]. split; [exact B2|].
      apply Nat.eqb_eq in B1. unfold lsg_epoch in E1. rewrite HJ in E1. cbn [Z.eqb Pos.eqb] in E1. apply online_visits in E1. destruct E1 as [V [V1 [V2 [V3 [V4 V5]]]]].
      exists st, V. repeat (split; [assumption|]). apply Forall_forall. intros v Hv. destruct (Qcltb_spec 0 (snd v)) as [Q|Q]; [|exact Q]. exfalso.
      assert (I : In v (filter (fun v => Qcltb 0 (snd v)) V)) by (apply filter_In; split; [exact Hv|destruct (Qcltb_spec 0 (snd v)); [reflexivity|qclra]]).
      destruct (filter (fun v => Qcltb 0 (snd v)) V); [destruct I|cbn in V4; lia].
    + apply IH in H. rewrite app_length in H. cbn [length] in H. destruct H as [H1 H2]. split; [lia|]. intros L. apply H2. lia.
Qed.
Lemma lsg_early_stop {X Y} prm (m : lmodel X Y) w0 S L w lr c t : sg_jobs prm = 1%Z -> lsg_fit prm m w0 false S L = Ok (SGLearner t (Some (w, lr, c))) ->
  (1 <= length c <= Datatypes.S (sg_max_iter prm))%nat /\
  ((length c <= sg_max_iter prm)%nat -> sg_break prm = true /\ exists st0 V, map (fun v => fst (fst v)) V = S /\
    lsg_visits prm m (length S) lr st0 V /\ w = sg_self (last (map (fun v => snd (fst v)) V) st0) /\ Forall (fun v => snd v <= 0) V).
Proof.
  intros HJ H. unfold lsg_fit in H. cbn [bind fst snd] in H. apply bind_ok in H. destruct H as [[st' c'] [E1 H]]. apply bind_ok in H. destruct H as [o [E2 H]].
  assert (EW : sg_self st' = w) by congruence. assert (EC : c' ++ [o] = c) by congruence. assert (EL : match sg_lr prm with Some r => r | None => sg_C prm * ofN (length S) end = lr) by congruence.
  rewrite EL in E1. apply (lsg_loop_stop prm m lr S HJ) in E1. destruct E1 as [A1 A2]. rewrite <- EC, app_length. cbn [length] in *. split; [lia|]. intros L1.
  destruct (A2 ltac:(lia)) as [B1 [st0 [V [V1 [V2 [V3 V4]]]]]]. split; [exact B1|]. exists st0, V. rewrite <- EW, V3. auto.
Qed.

(** ** concrete models: one node, one feature *)
Definition ex14_cluster : clusterer := fun _ _ _ => Ok (fun _ => O).
Definition ex14_x : graph_x := GraphX (Mat 1 1 [[1]]) [].
(** two states for label 0, one for label 1 *)
Definition ex14_g : lg_crf := LGCRF 2 1 [2; 1]%nat [0; 0; 1]%nat.
Definition ex14_w : list Qc := [- ofN 300; - ofN 200; - ofN 1000; 0; 0; 0; 0; 0; 0].
(** two states for each of two labels *)
Definition ex14_g2 : lg_crf := LGCRF 2 1 [2; 2]%nat [0; 0; 1; 1]%nat.
Definition ex14_w2 : list Qc := [0; 0; ofN 5; ofN 5; 0; 0; 0; 0; 0; 0; 0; 0; 0; 0].
Lemma ex14_setup : lg_setup 2 1 (StatesList [2; 1]%nat) = Ok ex14_g. Proof. reflexivity. Qed.
Lemma ex14_setup2 : lg_setup 2 1 (SameStates 2) = Ok ex14_g2. Proof. reflexivity. Qed.
Lemma ex14_valid g : lg_features g = 1%nat -> valid_x (lg_graph g) ex14_x.
Proof. intros H. apply Build_valid_x; [split; [reflexivity|repeat constructor]|cbn; congruence|constructor]. Qed.
Lemma ex14_exact : exact_solver_on max_product_solver 1 []. Proof. exact (max_product_exact_on_chain 1 ltac:(lia)). Qed.
Lemma ex14_explains : explains (lg_counts ex14_g) [1%nat] [0%nat]. Proof. constructor; [|constructor]. split; cbn; [lia|unfold offset; cbn; lia]. Qed.
Lemma latent_suboptimal : exists U P h', lg_setup 2 1 (StatesList [2; 1]%nat) = Ok ex14_g /\ exact_solver_on max_product_solver 1 [] /\
  g_potentials (lg_graph ex14_g) ex14_x ex14_w = Ok (U, P) /\ lg_latent max_product_solver ex14_g ex14_x [0%nat] ex14_w = Ok [0%nat] /\
  explains (lg_counts ex14_g) h' [0%nat] /\
  score 1 [] (mget U) (fun _ => mget P) (lab [0%nat]) < score 1 [] (mget U) (fun _ => mget P) (lab h').
Proof.
  destruct (g_potentials_ok (lg_graph ex14_g) ex14_x ex14_w (ex14_valid ex14_g eq_refl) eq_refl) as [U [P [E [OU [RU [CU [OP [RP [CP [GU GP]]]]]]]]]].
  exists U, P, [1%nat]. split; [exact ex14_setup|]. split; [exact ex14_exact|]. split; [exact E|].
  assert (R : g_potentials (lg_graph ex14_g) ex14_x ex14_w = Ok (Mat 1 3 [[- ofN 300; - ofN 200; - ofN 1000]], Mat 3 3 [[0;0;0];[0;0;0];[0;0;0]])).
  { apply (f_equal (fun r => r)). vm_compute. repeat f_equal; apply Qc_is_canon; reflexivity. }
  rewrite R in E. assert (U = Mat 1 3 [[- ofN 300; - ofN 200; - ofN 1000]] /\ P = Mat 3 3 [[0;0;0];[0;0;0];[0;0;0]]) as [-> ->] by (split; congruence).
  split; [vm_compute; reflexivity|]. split; [exact ex14_explains|]. vm_compute. reflexivity.
Qed.
Lemma ex14_right_exact : latent_exact (lg_lmodel max_product_solver ex14_cluster ex14_g2) (lg_task ex14_g2) (lg_E ex14_g2) 14 ex14_w2 (ex14_x, [1%nat]).
Proof.
  destruct (setup_laid_out _ _ _ _ ex14_setup2) as [HG _].
  assert (R : g_potentials (lg_graph ex14_g2) ex14_x ex14_w2 = Ok (Mat 1 4 [[0; 0; ofN 5; ofN 5]], Mat 4 4 [[0;0;0;0];[0;0;0;0];[0;0;0;0];[0;0;0;0]])).
  { vm_compute. repeat f_equal; apply Qc_is_canon; reflexivity. }
  refine (lg_latent_exact ex14_g2 max_product_solver ex14_cluster ex14_x [1%nat] ex14_w2 _ _ (ofN 5) 0 HG ex14_exact (ex14_valid ex14_g2 eq_refl) eq_refl _ _ _ R _ _ _).
  - cbn. lia.
  - split; [reflexivity|]. repeat constructor.
  - repeat constructor.
  - intros i s Hi Hs. cbn in Hi. assert (i = O) by lia. subst i. unfold lg_states in Hs. cbn in Hs.
    destruct s as [|[|[|[|s]]]]; [| | | |lia]; (split; vm_compute; discriminate).
  - intros s t Hs Ht. unfold lg_states in Hs, Ht. cbn in Hs, Ht.
    destruct s as [|[|[|[|s]]]]; [| | | |lia]; (destruct t as [|[|[|[|t]]]]; [| | | |lia]; (split; vm_compute; discriminate)).
  - vm_compute. reflexivity.
Qed.
Lemma objective_wrong : exists o, lg_setup 2 1 (SameStates 2) = Ok ex14_g2 /\
  latent_exact (lg_lmodel max_product_solver ex14_cluster ex14_g2) (lg_task ex14_g2) (lg_E ex14_g2) 14 ex14_w2 (ex14_x, [1%nat]) /\
  latent_objective (lg_lmodel max_product_solver ex14_cluster ex14_g2) 1 ex14_w2 [(ex14_x, [1%nat])] = Ok o /\
  forall vs, latent_hinges (lg_task ex14_g2) (lg_E ex14_g2) ex14_w2 [(ex14_x, [1%nat])] vs -> primal_value 1 ex14_w2 vs < o.
Proof.
  set (fc := find_constraint_latent (lg_lmodel max_product_solver ex14_cluster ex14_g2) ex14_x [1%nat] ex14_w2).
  pose proof ex14_right_exact as HX.
  destruct (fcl_value (lg_task ex14_g2) (lg_E ex14_g2) 14 (lg_lmodel max_product_solver ex14_cluster ex14_g2) eq_refl (ex14_x, [1%nat]) ex14_w2 eq_refl HX)
    as [h [hh [v [F1 [F2 [F3 [F4 [F5 [F6 [F7 [F8 F9]]]]]]]]]]]. cbn [fst snd] in *.
  assert (EH : lg_latent max_product_solver ex14_g2 ex14_x [1%nat] ex14_w2 = Ok [2%nat]) by (vm_compute; reflexivity).
  cbn [lg_lmodel lm_latent] in F1. rewrite EH in F1. assert (h = [2%nat]) by congruence. subst h.
  assert (EHH : lg_loss_augmented_inference max_product_solver ex14_g2 ex14_x [2%nat] ex14_w2 = Ok [2%nat]) by (vm_compute; reflexivity).
  cbn [lg_lmodel lm_s lg_smodel sm_laug] in F3. rewrite EHH in F3. assert (hh = [2%nat]) by congruence. subst hh.
  assert (V0 : v = 0).
  { rewrite F7. apply Qc_is_canon. vm_compute. reflexivity. }
  subst v. assert (EL : lg_loss ex14_g2 [1%nat] [2%nat] = Ok 1) by (vm_compute; repeat f_equal; apply Qc_is_canon; reflexivity).
  cbn [lg_lmodel lm_s lg_smodel sm_tuple sm_loss] in F9. specialize (F9 1 EL).
  eexists. split; [exact ex14_setup2|]. split; [exact HX|]. split.
  - unfold latent_objective. cbn [mapM fst snd]. cbn [lg_lmodel lm_s lg_smodel] in *. rewrite F9. cbn [bind length Nat.eqb negb ensure map fst snd]. reflexivity.
  - intros vs HV. inversion HV as [|p v S0 vs0 H1 H2]; subst. inversion H2; subst. cbn [fst snd] in H1.
    assert (v = 0).
    { eapply (latent_unique _ (lg_E ex14_g2)); [|exact H1|exists [2%nat]; split; [exact F2|exact F5]]. exact (proj2 (proj2 (proj1 HX))). }
    subst v. unfold primal_value. set (nn := normsq ex14_w2 / (1 + 1)). cbn [lsum]. clearbody nn.
    assert (LL : t_loss (lg_task ex14_g2) [2%nat] [2%nat] = 0) by (apply Qc_is_canon; vm_compute; reflexivity). rewrite LL.
    match goal with |- _ < ?q => assert (MX : q = 1 + nn) end. { f_equal. } rewrite MX. clear. replace (1 * (0 + 0) + nn) with nn by ring. assert (P01 : 0 < 1) by reflexivity. qclra.
Qed.

(** ** statements from [lg_setup] *)
Section Setup.
Variables (nl nf : nat) (p : per_label) (g : lg_crf).
Hypothesis EG : lg_setup nl nf p = Ok g.
Lemma setup_valid x : mat_ok (gx_features x) -> mcols (gx_features x) = nf -> graph_edges (mrows (gx_features x)) (gx_edges x) -> valid_x (lg_graph g) x.
Proof. intros H1 H2 H3. destruct (setup_laid_out _ _ _ _ EG) as [_ [_ [E2 _]]]. apply Build_valid_x; [exact H1|cbn; congruence|exact H3]. Qed.
Lemma setup_states y n : (0 < n)%nat -> Forall (fun c => (0 < c)%nat) (lg_counts g) -> labelling n nl y -> (0 < lg_states g)%nat.
Proof.
  intros Hn HC [L F]. destruct (setup_laid_out _ _ _ _ EG) as [[HL _] [E1 _]]. destruct y as [|l y]; [cbn in L; lia|]. apply Forall_cons_iff in F. destruct F as [F _].
  assert (Q := states_enough _ HC). unfold lg_states. lia.
Qed.
End Setup.
Lemma latent_succeeds nl nf p g solve x y w : lg_setup nl nf p = Ok g -> mat_ok (gx_features x) -> mcols (gx_features x) = nf ->
  graph_edges (mrows (gx_features x)) (gx_edges x) -> length w = g_size (lg_graph g) -> (0 < mrows (gx_features x))%nat ->
  Forall (fun c => (0 < c)%nat) (lg_counts g) -> labelling (mrows (gx_features x)) nl y ->
  (forall U P, mat_ok U -> mat_ok P -> mrows U = mrows (gx_features x) -> mcols U = lg_states g -> mrows P = lg_states g -> mcols P = lg_states g ->
     exists h, solve U (Pw2 P) (gx_edges x) = Ok h /\ labelling (mrows (gx_features x)) (lg_states g) h) ->
  exists h, lg_latent solve g x y w = Ok h /\ explains (lg_counts g) h y.
Proof.
  intros EG H1 H2 H3 HW HN HC HY HSO. destruct (setup_laid_out _ _ _ _ EG) as [HG [E1 _]].
  apply (latent_total_explains g HG x w y (setup_valid _ _ _ _ EG x H1 H2 H3) HW (proj1 HY) HN (setup_states _ _ _ _ EG y _ HN HC HY)); [|exact HSO].
  apply counts_pos; [exact HG|exact HC|rewrite E1; apply HY].
Qed.
Lemma latent_best_or_fallback nl nf p g solve x y w h U P : lg_setup nl nf p = Ok g -> mat_ok (gx_features x) -> mcols (gx_features x) = nf ->
  graph_edges (mrows (gx_features x)) (gx_edges x) -> length w = g_size (lg_graph g) -> (0 < mrows (gx_features x))%nat ->
  Forall (fun c => (0 < c)%nat) (lg_counts g) -> labelling (mrows (gx_features x)) nl y ->
  exact_solver_on solve (mrows (gx_features x)) (gx_edges x) -> g_potentials (lg_graph g) x w = Ok (U, P) -> lg_latent solve g x y w = Ok h ->
  best_explanation (lg_counts g) (mrows (gx_features x)) (gx_edges x) (mget U) (fun _ => mget P) y h \/ h = map (offset (lg_counts g)) y.
Proof.
  intros EG H1 H2 H3 HW HN HC HY HE EP E. destruct (setup_laid_out _ _ _ _ EG) as [HG [E1 _]].
  apply (latent_best g HG x w y (setup_valid _ _ _ _ EG x H1 H2 H3) HW (proj1 HY) HN (setup_states _ _ _ _ EG y _ HN HC HY) solve h U P HE EP); [|exact E].
  rewrite E1. apply Forall_impl with (2 := proj2 HY). intros l Hl. cbv beta in *. lia.
Qed.
Lemma latent_best_setup nl nf p g solve x y w U P B B' : lg_setup nl nf p = Ok g -> mat_ok (gx_features x) -> mcols (gx_features x) = nf ->
  graph_edges (mrows (gx_features x)) (gx_edges x) -> length w = g_size (lg_graph g) -> (0 < mrows (gx_features x))%nat ->
  Forall (fun c => (0 < c)%nat) (lg_counts g) -> labelling (mrows (gx_features x)) nl y ->
  exact_solver_on solve (mrows (gx_features x)) (gx_edges x) -> g_potentials (lg_graph g) x w = Ok (U, P) ->
  (forall i s, (i < mrows (gx_features x))%nat -> (s < lg_states g)%nat -> - B <= mget U i s /\ mget U i s <= B) ->
  (forall s t, (s < lg_states g)%nat -> (t < lg_states g)%nat -> - B' <= mget P s t /\ mget P s t <= B') ->
  ofN (mrows (gx_features x)) * (B + B) + ofN (length (gx_edges x)) * (B' + B') < ofN 100 ->
  exists h, lg_latent solve g x y w = Ok h /\
    best_explanation (lg_counts g) (mrows (gx_features x)) (gx_edges x) (mget U) (fun _ => mget P) y h.
Proof.
  intros EG H1 H2 H3 HW HN HC HY HE EP HU HP HSM. destruct (setup_laid_out _ _ _ _ EG) as [HG [E1 _]].
  apply (latent_best_small g HG x w y (setup_valid _ _ _ _ EG x H1 H2 H3) HW (proj1 HY) HN (setup_states _ _ _ _ EG y _ HN HC HY) solve U P B B' HE EP); try assumption.
  apply counts_pos; [exact HG|exact HC|rewrite E1; apply HY].
Qed.
Lemma latent_out_of_range nl nf p g solve x y w : lg_setup nl nf p = Ok g -> mat_ok (gx_features x) -> mcols (gx_features x) = nf ->
  graph_edges (mrows (gx_features x)) (gx_edges x) -> length w = g_size (lg_graph g) -> (0 < mrows (gx_features x))%nat -> (0 < lg_states g)%nat ->
  length y = mrows (gx_features x) -> Forall (fun l => (l <= nl)%nat) y -> In nl y ->
  (forall U P, mat_ok U -> mat_ok P -> mrows U = mrows (gx_features x) -> mcols U = lg_states g -> mrows P = lg_states g -> mcols P = lg_states g ->
     exists h, solve U (Pw2 P) (gx_edges x) = Ok h /\ labelling (mrows (gx_features x)) (lg_states g) h) ->
  exists h, lg_latent solve g x y w = Ok h /\ In (lg_states g) h.
Proof.
  intros EG H1 H2 H3 HW HN HS HY HB HI HSO. destruct (setup_laid_out _ _ _ _ EG) as [HG [E1 _]]. subst nl.
  exists (map (offset (lg_counts g)) y). exact (latent_bad_label g x w y solve HG (setup_valid _ _ _ _ EG x H1 H2 H3) HW HY HN HS HB HSO HI).
Qed.
Lemma layout nl nf p g : lg_setup nl nf p = Ok g ->
  lg_labels g = nl /\ length (lg_counts g) = nl /\ lg_counts g = match p with SameStates k => repeat k nl | StatesList l => l end /\
  (forall h y, label_from_latent g h = Ok y <-> explains (lg_counts g) h y) /\
  (forall h, (forall y, label_from_latent g h <> Ok y) -> label_from_latent g h = Err IndexError) /\
  (forall s, (s < lg_states g)%nat -> in_block (lg_counts g) (owner (lg_counts g) s) s) /\
  (forall s l l', in_block (lg_counts g) l s -> in_block (lg_counts g) l' s -> l = l') /\
  (forall s l, in_block (lg_counts g) l s -> (s < lg_states g)%nat) /\
  (forall l l' s s', in_block (lg_counts g) l s -> in_block (lg_counts g) l' s' -> (l < l')%nat -> (s < s')%nat).
Proof.
  intros EG. destruct (setup_laid_out _ _ _ _ EG) as [HG [E1 [_ E3]]]. split; [exact E1|]. split; [destruct HG as [HL _]; congruence|]. split; [exact E3|].
  split; [exact (label_explains g HG)|]. split; [intros h H; apply label_err; [exact HG|]; intros F; exact (H _ (label_ok g HG h F))|].
  split; [exact (owner_block _)|]. split; [intros s l l' A B; exact (block_unique _ _ _ s A B)|]. split; [intros s l A; exact (block_states _ l s A)|].
  intros l l' s s' [_ A] [_ B] L. pose proof (offset_mono (lg_counts g) (Datatypes.S l) l' L). lia.
Qed.
Lemma setup_iff nl nf p : (exists g, lg_setup nl nf p = Ok g) <-> match p with SameStates _ => True | StatesList l => length l = nl end.
Proof.
  split; [|exact (setup_ok nl nf p)]. intros [g H]. destruct p as [k|l]; [exact I|]. destruct (Nat.eq_dec (length l) nl) as [Q|Q]; [exact Q|].
  rewrite (setup_err nl nf l Q) in H. discriminate H.
Qed.
Lemma init_explains cluster nl nf p g S H : clusters cluster -> lg_setup nl nf p = Ok g ->
  lg_init_latent cluster g S = Ok H -> Forall2 (fun s h => explains (lg_counts g) h (snd s) /\ label_from_latent g h = Ok (snd s)) S H.
Proof.
  intros HC EG E. destruct (setup_laid_out _ _ _ _ EG) as [HG _]. assert (HL : length (lg_counts g) = lg_labels g) by apply HG.
  apply (kmeans_consistent _ _ _ _ _ _ HC HL) in E. revert H E. induction S as [|s S IH]; intros H E; cbn [map] in E; inversion E; subst; constructor.
  - cbn [fst snd] in *. split; [assumption|]. apply label_explains; assumption.
  - apply IH. assumption.
Qed.
Lemma init_succeeds cluster nl nf p g S : S <> [] -> lg_setup nl nf p = Ok g ->
  (forall label k rows, (label < nl)%nat -> exists km, cluster label k rows = Ok km) ->
  Forall (fun s => labelling (mrows (gx_features (fst s))) nl (snd s) /\ mcols (gx_features (fst s)) = nf /\
                   graph_edges (mrows (gx_features (fst s))) (gx_edges (fst s))) S ->
  exists H, lg_init_latent cluster g S = Ok H.
Proof.
  intros HS EG HK HF. destruct (setup_laid_out _ _ _ _ EG) as [HG [E1 _]]. assert (HL : length (lg_counts g) = lg_labels g) by apply HG. subst nl.
  apply (kmeans_total cluster _ _ true _ (nf + 1 * lg_labels g * 1)%nat HL); [destruct S; [congruence|discriminate]|exact HK|].
  apply Forall_map. apply Forall_impl with (2 := HF). intros s [[A1 A2] [A3 A4]]. cbn [length]. split; [exact A1|]. split; [exact A2|]. split; [discriminate|]. split; [rewrite A3; reflexivity|].
  constructor; [exact A4|constructor].
Qed.
Lemma augmented_score nl nf p g n h u : lg_setup nl nf p = Ok g ->
  labelling n (lg_states g) h -> mat_ok u -> mrows u = n -> mcols u = lg_states g ->
  exists u', lg_augment g h (seq 0 (lg_states g)) u = Ok u' /\ mat_ok u' /\ mrows u' = n /\ mcols u' = lg_states g /\
  (forall i s, (i < n)%nat -> (s < lg_states g)%nat -> mget u' i s = mget u i s + if (owner (lg_counts g) (lab h i) =? owner (lg_counts g) s)%nat then 0 else 1) /\
  forall edges P h', labelling n (lg_states g) h' ->
    lg_loss g h h' = Ok (label_distance (lg_counts g) h h') /\
    score n edges (mget u') P (lab h') = score n edges (mget u) P (lab h') + label_distance (lg_counts g) h h'.
Proof.
  intros EG HH OU RU CU. destruct (setup_laid_out _ _ _ _ EG) as [HG _]. destruct (augment_all g HG n h u HH OU RU CU) as [u' [E [O [R [C [V W]]]]]].
  exists u'. repeat (split; [assumption|]). intros edges P h' H'. split; [apply (lg_loss_value g HG n); assumption|apply W; exact H'].
Qed.
Lemma latent_model nl nf p g solve x h : lg_setup nl nf p = Ok g -> mat_ok (gx_features x) -> mcols (gx_features x) = nf ->
  graph_edges (mrows (gx_features x)) (gx_edges x) -> labelling (mrows (gx_features x)) (lg_states g) h ->
  implements (lg_smodel solve g) (lg_task g) (g_size (lg_graph g)) x h /\
  forall w, length w = g_size (lg_graph g) -> (0 < lg_states g)%nat -> exact_solver_on solve (mrows (gx_features x)) (gx_edges x) ->
    exact_laug (lg_smodel solve g) (lg_task g) w x h /\ exact_inference (lg_smodel solve g) (lg_task g) w x.
Proof.
  intros EG H1 H2 H3 Hh. destruct (setup_laid_out _ _ _ _ EG) as [HG _]. assert (HX := setup_valid _ _ _ _ EG x H1 H2 H3).
  split; [apply lg_implements; assumption|]. intros w HW HS HE. split; [apply lg_exact_laug; assumption|apply lg_exact_inference; assumption].
Qed.
Lemma loss_right_iff nl nf p g n y : lg_setup nl nf p = Ok g -> labelling n nl y -> Forall (fun c => (0 < c)%nat) (lg_counts g) ->
  (forall h, labelling n (lg_states g) h -> lg_loss g y h = Ok (hamming n (fun _ => 1) (lab y) (fun i => owner (lg_counts g) (lab h i)))) <->
  (forall i, (i < n)%nat -> owner (lg_counts g) (lab y i) = lab y i).
Proof.
  intros EG HY HC. destruct (setup_laid_out _ _ _ _ EG) as [HG [E1 _]]. subst nl. apply label_loss_right; try assumption.
  destruct HG as [HL _]. rewrite <- HL. apply states_enough. exact HC.
Qed.
Lemma majorant {X Y} (T : task X Y) (E : X -> Y -> Y -> Prop) x y h :
  (forall h h' z, E x y h -> E x y h' -> t_label T x z -> t_loss T h z = t_loss T h' z) -> E x y h ->
  (forall w v v', is_latent_hinge T E w x y v -> is_hinge T w x h v' -> v <= v') /\
  (forall w v v', best_completion T E w x y h -> is_latent_hinge T E w x y v -> is_hinge T w x h v' -> v = v').
Proof.
  intros HL HE. split.
  - intros w v v'. exact (latent_le_hinge T E w x y h v v' HE HL).
  - intros w v v' HB HV HH. apply (latent_unique T E w x y v v' HL HV). exists h. split; assumption.
Qed.
Lemma epoch_visits {X Y} prm (m : lmodel X Y) lr S st st' pos obj : sg_jobs prm = 1%Z ->
  lsg_epoch prm m lr S st = Ok (st', pos, obj) <->
  exists V, map (fun v => fst (fst v)) V = S /\ lsg_visits prm m (length S) lr st V /\ st' = last (map (fun v => snd (fst v)) V) st /\
    pos = length (filter (fun v => Qcltb 0 (snd v)) V) /\ obj = lsum (map (fun v => Qcmax (snd v) 0) V).
Proof.
  intros HJ. unfold lsg_epoch. rewrite HJ. cbn [Z.eqb Pos.eqb]. rewrite online_visits. split; intros [V [A [B [C [D F]]]]]; exists V; (split; [exact A|]; split; [exact B|]; split; [exact C|]; split).
  - exact D.
  - rewrite F. ring.
  - exact D.
  - rewrite F. ring.
Qed.

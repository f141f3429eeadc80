(** Inference with two labels. *)
From Coq Require Import String.
From Verif Require Import Model.LP Model.Inference Model.CRF Model.Loss Model.Exhaustive Spec.Energy Spec.SolverSpec Spec.LocalPolytope Spec.LPSpec
  Spec.GraphSpec Spec.LossSpec Spec.BinaryLPSpec Spec.DispatchSpec Spec.SingleTypeSpec
  Proofs.Arrays Proofs.EnergyProofs Proofs.GraphCRFProofs Proofs.LossProofs Proofs.CRFProofs Proofs.LPProofs Proofs.LPProofs2
  Proofs.InferenceProofs Proofs.ForestLP Proofs.ForestLP2 Proofs.DispatchProofs Proofs.BinaryLP Proofs.BinaryLP2.
Open Scope Qc_scope.

Lemma best_labelling n k edges U P : (0 < k)%nat -> exists y, maximiser n k edges U P y.
Proof.
  intros Hk. assert (B : forall l, l <> [] -> exists b, In b l /\ forall x, In x l -> score n edges U P (lab x) <= score n edges U P (lab b)).
  { induction l as [|a l IH]; [congruence|]. intros _. destruct l as [|a' l].
    - exists a. split; [left; reflexivity|]. intros x [<-|[]]. apply Qcle_refl.
    - destruct IH as [b [B1 B2]]; [discriminate|]. destruct (Qclt_le_dec (score n edges U P (lab a)) (score n edges U P (lab b))) as [Q|Q].
      + exists b. split; [right; exact B1|]. intros x [<-|Hx]; [apply Qclt_le_weak; exact Q|now apply B2].
      + exists a. split; [left; reflexivity|]. intros x [<-|Hx]; [apply Qcle_refl|]. eapply Qcle_trans; [now apply B2|exact Q]. }
  destruct (B (product_range k n) (product_range_nonempty k n Hk)) as (y & I & M). exists y. split; [now apply product_range_in|].
  intros z Hz. apply M. now apply product_range_in.
Qed.

Lemma relaxation_tight n edges U P mu nu : graph_edges n edges -> attractive (length edges) P -> local_polytope n 2 edges mu nu ->
  exists y, maximiser n 2 edges U P y /\ marginal_score n 2 edges U P mu nu <= score n edges U P (lab y).
Proof.
  intros G A L. destruct (best_labelling n 2 edges U P ltac:(lia)) as (y & Hy). exists y. split; [exact Hy|].
  apply relaxation_bounded; auto. apply Hy.
Qed.
Lemma best_is_relaxed_optimum n edges U P y : graph_edges n edges -> attractive (length edges) P -> maximiser n 2 edges U P y ->
  relaxed_optimum n 2 edges U P (one_hot_mu (lab y)) (one_hot_nu edges (lab y)).
Proof.
  intros G A Hy. assert (L2 : forall i, (i < n)%nat -> (lab y i < 2)%nat) by (intros; eapply lab_lt; [apply Hy|assumption]).
  split; [now apply one_hot_local|]. intros mu nu L. rewrite one_hot_score by assumption. apply relaxation_bounded; auto. apply Hy.
Qed.

Lemma lp_has_optimum U p edges n : mat_ok U -> mrows U = n -> mcols U = 2%nat -> (0 < n)%nat ->
  graph_edges n edges -> pw_ok p -> pw_shape p (length edges) 2 -> attractive (length edges) (pw_table p) ->
  exists pws pb x, validate_params U p (length edges) = Ok (2%nat, pws) /\
    lp_build (mat_neg U) edges (map (map (map Qcopp)) pws) = Ok pb /\ optimal pb x.
Proof.
  intros HU Hr Hc Hn G Hpo Hp A.
  destruct (lp_problem_ok U p edges n 2 HU Hr Hc Hn ltac:(lia) G Hpo Hp) as (pws & pb & EV & EB & _ & FI & OB & LB).
  destruct (best_labelling n 2 edges (mget U) (pw_table p) ltac:(lia)) as (y & Hy).
  destruct (LB y (proj1 Hy)) as (x & Fx & Ox & _). exists pws, pb, x. split; [exact EV|]. split; [exact EB|].
  split; [exact Fx|]. intros x' Fx'. rewrite Ox, (OB x' Fx'). apply FI in Fx'. destruct Fx' as [_ L].
  assert (B := relaxation_bounded n edges (mget U) (pw_table p) G _ (proj2 Hy) _ _ A L).
  revert B. generalize (marginal_score n 2 edges (mget U) (pw_table p) (var_mu 2 x') (var_nu n 2 x')), (score n edges (mget U) (pw_table p) (lab y)).
  intros; qclra.
Qed.

(** the argmax of a point of the relaxation is its threshold at one half *)
Lemma argmax_threshold um y n edges nu : mrows um = n -> mcols um = 2%nat -> local_polytope n 2 edges (mget um) nu ->
  argmax_rows um = Ok y -> y = threshold n (Q2Qc (1 # 2)) (mget um).
Proof.
  intros Hr Hc L E. destruct (argmax_rows_first um y E) as [HL F]. rewrite Hr, Hc in *.
  apply nth_ext with 0%nat 0%nat; [unfold threshold; now rewrite map_length, seq_length|]. intros i Hi. rewrite HL in Hi.
  change (lab y i = lab (threshold n (Q2Qc (1 # 2)) (mget um)) i). unfold threshold. rewrite lab_map by assumption.
  destruct (F i Hi) as (F1 & F2 & F3). pose proof (lpo_one _ _ _ _ _ L i Hi) as S1. rewrite sumn2 in S1.
  assert (HH : Q2Qc (1 # 2) + Q2Qc (1 # 2) = 1) by (apply Qc_is_canon; reflexivity). revert HH. generalize (Q2Qc (1 # 2)). intros h HH.
  destruct (Qcltb_spec h (mget um i 1%nat)) as [C|C].
  - assert (lab y i = 0 \/ lab y i = 1)%nat as [E0|E0] by lia; [|exact E0]. exfalso. specialize (F2 1%nat ltac:(lia)). rewrite E0 in F2.
    revert S1 C F2. generalize (mget um i 0%nat), (mget um i 1%nat). intros. qclra.
  - assert (lab y i = 0 \/ lab y i = 1)%nat as [E0|E0] by lia; [exact E0|]. exfalso. specialize (F3 0%nat ltac:(lia)). rewrite E0 in F3.
    revert S1 C F3. generalize (mget um i 0%nat), (mget um i 1%nat). intros. qclra.
Qed.

Lemma inference_lp_binary solve U p edges n : mat_ok U -> mrows U = n -> mcols U = 2%nat -> (0 < n)%nat ->
  graph_edges n edges -> pw_ok p -> pw_shape p (length edges) 2 -> lp_solved solve U p edges ->
  exists y e um pm, inference_lp solve U p edges false = Ok (Labels y, e) /\
    inference_lp solve U p edges true = Ok (Marginals um pm, e) /\ labelling n 2 y /\
    (forall z, labelling n 2 z ->
       score n edges (mget U) (pw_table p) (lab z) <= score n edges (mget U) (pw_table p) (lab (keep_decided n (mget um) z))) /\
    (attractive (length edges) (pw_table p) ->
       maximiser n 2 edges (mget U) (pw_table p) y /\ score n edges (mget U) (pw_table p) (lab y) = - e /\
       forall theta, 0 <= theta -> theta < 1 -> maximiser n 2 edges (mget U) (pw_table p) (threshold n theta (mget um))).
Proof.
  intros HU Hr Hc Hn G Hpo Hp (pws & pb & x & EV & EB & ES & HO). rewrite Hc in EV.
  destruct (inference_lp_ok solve U p edges n 2 pws pb x true HU Hr Hc Hn ltac:(lia) G Hpo Hp EV EB ES HO)
    as (a & e & EI & UB & um & pm & -> & Rr & Rc & _ & _ & L & MV & OPT).
  destruct (argmax_rows_ok um n 2 Rr Rc ltac:(lia)) as (y & EA & HY & _).
  assert (RO : relaxed_optimum n 2 edges (mget U) (pw_table p) (mget um) (fun e s t => mget pm e (s * 2 + t)))
    by (split; [exact L|]; rewrite MV; exact OPT).
  exists y, e, um, pm. split; [now rewrite (inference_lp_labels _ _ _ _ _ _ _ EI), EA|]. split; [exact EI|]. split; [exact HY|]. split.
  - intros z Hz. now apply (keep_decided_better n edges (mget U) (pw_table p) G _ _ RO).
  - intros A. pose proof (fun th => threshold_best n edges (mget U) (pw_table p) G _ _ RO th A) as T.
    rewrite (argmax_threshold um y n edges _ Rr Rc L EA).
    destruct (T (Q2Qc (1 # 2)) ltac:(vm_compute; discriminate) ltac:(reflexivity)) as [T1 T2].
    split; [exact T1|]. split; [now rewrite T2|]. intros th H0 H1. now apply T.
Qed.

Lemma ad3_binary b lib U p edges relaxed bnb exc n pws um pm energy st :
  b_ad3 b = Some lib -> mat_ok U -> mrows U = n -> mcols U = 2%nat -> graph_edges n edges ->
  validate_params U p (length edges) = Ok (2%nat, pws) ->
  ad3_graph lib U edges pws bnb = Ok (um, pm, energy, st) ->
  mrows um = n -> mcols um = 2%nat ->
  relaxed_optimum n 2 edges (mget U) (pw_table p) (mget um) (fun e s t => mget pm e (s * 2 + t)) ->
  (relaxed = false \/ st = Integral) -> attractive (length edges) (pw_table p) ->
  exists y, inference_ad3 b (Single U p edges) relaxed bnb exc = Ok (RLabels y, - energy) /\
    maximiser n 2 edges (mget U) (pw_table p) y.
Proof.
  intros Hb HU Hr Hc G EV EL Rr Rc RO HR A. destruct (argmax_rows_ok um n 2 Rr Rc ltac:(lia)) as (y & EA & HY & _).
  exists y. split.
  - unfold inference_ad3. rewrite Hb. cbn [imported bind]. rewrite EV. cbn [bind snd]. rewrite EL. cbn [bind].
    unfold single_answer. replace (not_integral st && relaxed)%bool with false.
    + rewrite EA. reflexivity.
    + destruct HR as [-> | ->]; [now rewrite andb_false_r|reflexivity].
  - rewrite (argmax_threshold um y n edges _ Rr Rc (proj1 RO) EA).
    apply (threshold_best n edges (mget U) (pw_table p) G _ _ RO (Q2Qc (1 # 2)) A); [vm_compute; discriminate|reflexivity].
Qed.

(** through the dispatcher *)
Lemma dispatch_lp b U p edges : dispatch_solver b "lp" U p edges =
  (let! r := inference_lp (b_lp b) U p edges false in
   match fst r with Labels y => Ok y | Marginals um pm => labels_of (RMarginals um pm) end).
Proof.
  unfold dispatch_solver. cbn. destruct (inference_lp (b_lp b) U p edges false) as [[[y|um pm] e]|]; reflexivity.
Qed.
Lemma dispatch_lp_binary b U p edges n : mat_ok U -> mrows U = n -> mcols U = 2%nat -> (0 < n)%nat ->
  graph_edges n edges -> pw_ok p -> pw_shape p (length edges) 2 -> lp_solved (b_lp b) U p edges ->
  attractive (length edges) (pw_table p) ->
  exists y, dispatch_solver b "lp" U p edges = Ok y /\ maximiser n 2 edges (mget U) (pw_table p) y.
Proof.
  intros HU Hr Hc Hn G Hpo Hp HS A.
  destruct (inference_lp_binary (b_lp b) U p edges n HU Hr Hc Hn G Hpo Hp HS) as (y & e & um & pm & E & _ & _ & _ & T).
  exists y. split; [now rewrite dispatch_lp, E|]. now apply T.
Qed.

Section graph_crf.
Variables (b : backends) (g : graph_crf) (x : graph_x) (w : list Qc).
Notation n := (mrows (gx_features x)).
Hypothesis (Hx : valid_x g x) (Hw : length w = g_size g) (Hk : g_states g = 2%nat) (Hn : (0 < n)%nat).
Hypothesis A : pair_score 2 (g_features g) (g_directed g) w 0 1 + pair_score 2 (g_features g) (g_directed g) w 1 0 <=
               pair_score 2 (g_features g) (g_directed g) w 0 0 + pair_score 2 (g_features g) (g_directed g) w 1 1.

Lemma graph_crf_lp U P : g_potentials g x w = Ok (U, P) -> lp_solved (b_lp b) U (Pw2 P) (gx_edges x) ->
  exists y psi, g_inference (dispatch_solver b "lp") g x w = Ok y /\ labelling n 2 y /\
    g_joint_feature g x (Discrete y) = Ok psi /\
    forall y' psi', labelling n 2 y' -> g_joint_feature g x (Discrete y') = Ok psi' -> dot w psi' <= dot w psi.
Proof.
  intros E0 HS.
  destruct (g_potentials_ok g x w Hx Hw) as [U2 [P2 [E [OU [RU [CU [OP [RP [CP [GU GP]]]]]]]]]].
  rewrite E in E0. injection E0 as -> ->. rewrite Hk in *.
  destruct (dispatch_lp_binary b U (Pw2 P) (gx_edges x) n) as [y [Ey [Hy Hm]]]; auto.
  { apply Hx. } { split; assumption. } { intros e He. cbn. rewrite !GP by lia. exact A. }
  rewrite <- Hk in Hy. destruct (g_joint_feature_discrete g x w y Hx Hw Hy) as [psi [E1 [E2 E3]]]. rewrite Hk in Hy.
  exists y, psi. unfold g_inference. rewrite E. cbn [bind fst snd]. repeat (split; auto).
  intros y' psi' Hy' E'. assert (Hy2 := Hy'). rewrite <- Hk in Hy2. destruct (g_joint_feature_discrete g x w y' Hx Hw Hy2) as [psi2 [F1 [F2 F3]]].
  rewrite E' in F1. injection F1 as <-. rewrite E3, F3.
  fold (g_score g x w y). fold (g_score g x w y').
  rewrite <- (g_score_potentials g x w U P y), <- (g_score_potentials g x w U P y') by (rewrite ?Hk; assumption).
  apply Hm. exact Hy'.
Qed.

Lemma graph_crf_lp_augmented cw y U P U' : length cw = 2%nat -> labelling n 2 y ->
  g_potentials g x w = Ok (U, P) -> loss_augment_unaries U y cw = Ok U' -> lp_solved (b_lp b) U' (Pw2 P) (gx_edges x) ->
  exists yh psi l, g_loss_augmented_inference (dispatch_solver b "lp") g cw x y w = Ok yh /\
    labelling n 2 yh /\ g_joint_feature g x (Discrete yh) = Ok psi /\ loss (Some cw) y yh = Ok l /\
    forall y' psi' l', labelling n 2 y' -> g_joint_feature g x (Discrete y') = Ok psi' -> loss (Some cw) y y' = Ok l' ->
      dot w psi' + l' <= dot w psi + l.
Proof.
  intros Hc Hy E0 EU' HS.
  destruct (g_potentials_ok g x w Hx Hw) as [U2 [P2 [E [OU [RU [CU [OP [RP [CP [GU GP]]]]]]]]]].
  rewrite E in E0. injection E0 as -> ->.
  destruct (loss_augment_ok U y cw _ _ RU CU ltac:(congruence) ltac:(rewrite Hk; exact Hy)) as [U3 [E3 [OU' [RU' [CU' GU']]]]].
  rewrite EU' in E3. injection E3 as <-. rewrite Hk in *.
  destruct (dispatch_lp_binary b U' (Pw2 P) (gx_edges x) n) as [yh [Ey [Hyh Hm]]]; auto.
  { apply Hx. } { split; assumption. } { intros e He. cbn. rewrite !GP by lia. exact A. }
  assert (FJ : forall z, labelling n 2 z -> exists psi, g_joint_feature g x (Discrete z) = Ok psi /\ dot w psi = g_score g x w z).
  { intros z Hz. rewrite <- Hk in Hz. destruct (g_joint_feature_discrete g x w z Hx Hw Hz) as [psi [E1 [E2 E3]]]. exists psi. split; [exact E1|exact E3]. }
  destruct (FJ yh Hyh) as (psi & E1 & E2).
  assert (EL := loss_weighted _ _ cw y yh Hc Hy (proj1 Hyh)).
  exists yh, psi. eexists. unfold g_loss_augmented_inference. rewrite E. cbn [bind fst snd]. rewrite EU'. cbn [bind].
  split; [exact Ey|]. split; [exact Hyh|]. split; [exact E1|]. split; [exact EL|].
  intros y' psi' l' Hy' E' EL'. destruct (FJ y' Hy') as (psi2 & F1 & F2). rewrite E' in F1. injection F1 as <-.
  rewrite (loss_weighted _ _ cw y y' Hc Hy (proj1 Hy')) in EL'. injection EL' as <-.
  rewrite E2, F2.
  rewrite <- (g_score_potentials g x w U P yh), <- (g_score_potentials g x w U P y') by (rewrite ?Hk; assumption).
  assert (AA : forall z, labelling n 2 z ->
     score n (gx_edges x) (mget U') (fun _ => mget P) (lab z) =
     score n (gx_edges x) (mget U) (fun _ => mget P) (lab z) + hamming n (get1 cw) (lab y) (lab z)).
  { intros z Hz. unfold score, hamming.
    rewrite (sumn_ext _ (fun i => mget U' i (lab z i))
      (fun i => mget U i (lab z i) + if (lab y i =? lab z i)%nat then 0 else get1 cw (lab y i))).
    - rewrite sumn_plus. ring.
    - intros i Hi. apply GU'; auto. eapply labelling_lt; eauto. }
  rewrite <- !AA by assumption. apply Hm. exact Hy'.
Qed.
End graph_crf.

Lemma persistent_best n edges U P mu nu : graph_edges n edges -> relaxed_optimum n 2 edges U P mu nu ->
  exists y, maximiser n 2 edges U P y /\
    forall i, (i < n)%nat -> (mu i 1%nat = 1 -> lab y i = 1%nat) /\ (mu i 1%nat = 0 -> lab y i = 0%nat).
Proof.
  intros G O. destruct (best_labelling n 2 edges U P ltac:(lia)) as (z & Hz & Mz). exists (keep_decided n mu z). split.
  - split; [now apply keep_labelling|]. intros y Hy. eapply Qcle_trans; [now apply Mz|]. now apply (keep_decided_better n edges U P G mu nu O).
  - intros i Hi. unfold keep_decided. rewrite lab_map by assumption. split; intros E; rewrite E.
    + reflexivity.
    + reflexivity.
Qed.

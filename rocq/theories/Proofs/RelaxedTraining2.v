(** Training with relaxed inference: data sets, the one-slack learner, the duplicate test of n-slack. *)
From Coq Require Import String.
From Verif Require Import Model.LP Model.Inference Model.CRF Model.Loss Model.RelaxedCRF Spec.Energy Spec.SolverSpec Spec.LocalPolytope Spec.LPSpec
  Spec.GraphSpec Spec.GraphTheory Spec.LossSpec Spec.BinaryLPSpec Spec.NSlackSpec Spec.OneSlackSpec Spec.CuttingPlaneSpec Spec.RelaxedSpec
  Proofs.Arrays Proofs.EnergyProofs Proofs.GraphCRFProofs Proofs.LossProofs Proofs.CRFProofs Proofs.LPProofs Proofs.LPProofs2
  Proofs.InferenceProofs Proofs.ViterbiProofs Proofs.MaxProdProofs Proofs.ForestLP Proofs.ForestLP2 Proofs.BinaryLP3 Proofs.InstanceProofs Proofs.LearnerProofs Proofs.OneSlackProofs2
  Proofs.CuttingPlane4 Proofs.Agree Proofs.FourierMotzkin2 Proofs.RelaxedTask Proofs.RelaxedLP Proofs.RelaxedTraining.
Open Scope Qc_scope.

Lemma solver_exists : exists solve, finds_optima solve.
Proof. exists fm_solve. intros pb H. exact (fm_solve_ok pb H). Qed.

(** exact labels on a forest solve the relaxation *)
Lemma labels_solve b meth n edges : graph_edges n edges -> acyclic edges ->
  (forall U m k, shaped U n k -> shaped m k k -> (0 < k)%nat -> exists y e,
     inference_dispatch b (Single U (Pw2 m) edges) meth false [("relaxed"%string, VBool true)] = Ok (RLabels y, e) /\
     maximiser n k edges (mget U) (fun _ => mget m) y) ->
  solves_relaxation b meth n edges.
Proof.
  intros G A H U m k SU SM Hk. destruct (H U m k SU SM Hk) as (y & e & E & HY & M). exists (RLabels y), e. split; [exact E|].
  cbn [best_relaxed]. split; [exact HY|]. split; [apply one_hot_local; [exact G|intros i Hi; apply (lab_lt n k y i HY Hi)]|].
  intros mu nu L. destruct (forest_lp_value n k edges (mget U) (fun _ => mget m) mu nu G A L) as (z & Hz & B).
  eapply Qcle_trans; [exact B|]. rewrite one_hot_score; [apply M, Hz|exact G|intros i Hi; apply (lab_lt n k y i HY Hi)].
Qed.

Lemma sample_valid g x y : graph_sample g x y -> valid_x g x.
Proof. intros (H1 & H2 & H3 & _). apply Build_valid_x; assumption. Qed.

Lemma In_combine_labels (g : graph_crf) Xs Ys p : Forall2 (graph_sample g) Xs Ys -> In p (combine Xs (map RLabels Ys)) ->
  In (fst p) Xs /\ exists y, snd p = RLabels y /\ graph_sample g (fst p) y.
Proof.
  intros H. induction H as [|x y Xs Ys Hxy H IH]; [intros []|]. cbn [map combine]. intros [<-|Hp].
  - split; [left; reflexivity|]. exists y. auto.
  - destruct (IH Hp) as [H1 H2]. split; [right; exact H1|exact H2].
Qed.
Lemma relaxed_oracle b meth g cw Xs Ys : (0 < g_states g)%nat -> length cw = g_states g -> Forall2 (graph_sample g) Xs Ys ->
  (forall x, In x Xs -> solves_relaxation b meth (mrows (gx_features x)) (gx_edges x)) ->
  oracle_exact (relaxed_smodel b meth g cw) (relaxed_task g cw) (g_size g) (combine Xs (map RLabels Ys)).
Proof.
  intros Hk Hc HS HB p Hp. destruct (In_combine_labels g Xs Ys p HS Hp) as (HX & y & -> & G). split.
  - apply relaxed_implements; [apply (sample_valid g _ y G)|exact Hk|exact Hc|apply G].
  - intros w Hw. apply relaxed_exact_laug; [apply (sample_valid g _ y G)|exact Hk|apply HB, HX|exact Hc|exact Hw|apply G].
Qed.
Lemma loss_bounded g cw x y : graph_sample g x y ->
  exists L, forall r, t_label (relaxed_task g cw) x r -> t_loss (relaxed_task g cw) (RLabels y) r <= L.
Proof.
  intros G. assert (HV := sample_valid g x y G). exists (sumn (length y) (fun i => Qcmax (get1 cw (lab y i)) (- get1 cw (lab y i)))).
  intros r Hr. rewrite (loss_value g cw x y r) by (apply G || exact Hr). unfold relaxed_loss. apply sumn_le. intros i Hi.
  assert (LP := label_polytope g cw x HV r Hr). destruct (polytope_le_one _ _ _ _ _ (vx_edges _ _ HV) LP) as [M _].
  destruct G as (_ & _ & _ & _ & HY). rewrite (proj1 HY) in Hi. assert (Hl := lab_lt _ _ _ _ HY Hi).
  specialize (M i (lab y i) Hi Hl). assert (N := lpo_mu _ _ _ _ _ LP i (lab y i) Hi Hl).
  rewrite Qcmult_comm. apply le_abs; qclra.
Qed.
Lemma sample_bounds g cw Xs Ys : (0 < g_states g)%nat -> Forall2 (graph_sample g) Xs Ys ->
  exists R2 L, 0 < R2 /\ forall p r, In p (combine Xs (map RLabels Ys)) -> t_label (relaxed_task g cw) (fst p) r ->
    normsq (vsub (t_feat (relaxed_task g cw) (fst p) (snd p)) (t_feat (relaxed_task g cw) (fst p) r)) <= R2 /\
    t_loss (relaxed_task g cw) (snd p) r <= L.
Proof.
  intros Hk H. induction H as [|x y Xs Ys G H IH].
  - exists 1, 0. split; [reflexivity|]. intros p r [].
  - destruct IH as (R2 & L & HR & B). destruct (features_bounded g cw x (sample_valid g x y G) Hk) as (R' & HR' & B').
    destruct (loss_bounded g cw x y G) as (L' & BL). exists (R2 + R'), (Qcmax L L'). split; [qclra|].
    cbn [map combine]. intros p r [<-|Hp] Hr.
    + cbn [fst snd] in *. split; [|eapply Qcle_trans; [apply BL, Hr|unfold Qcmax; destruct (Qcleb_spec L L'); qclra]].
      eapply Qcle_trans; [apply B'; [apply G|exact Hr]|qclra].
    + destruct (B p r Hp Hr) as [B1 B2]. split; [qclra|]. unfold Qcmax. destruct (Qcleb_spec L L'); qclra.
Qed.
(** total loss of the predictions *)
Lemma predictions b g cw w Xs Ys hs : finds_optima (b_lp b) -> (0 < g_states g)%nat -> length cw = g_states g ->
  (forall s, (s < g_states g)%nat -> 0 <= get1 cw s) -> length w = g_size g -> Forall2 (graph_sample g) Xs Ys ->
  hinges (relaxed_task g cw) w (combine Xs (map RLabels Ys)) hs ->
  exists preds, predicts (relaxed_smodel b (Name "lp") g cw) w Xs preds /\ loss_sum (g_task g cw) Ys preds <= (1 + 1) * lsum hs.
Proof.
  intros HF Hk Hc HP Hw H. revert hs. induction H as [|x y Xs Ys G H IH]; intros hs HH.
  - inversion HH; subst. exists []. split; [constructor|]. vm_compute. discriminate.
  - cbn [map combine] in HH. inversion HH as [|? h ? hs' H1 H2]; subst. destruct (IH hs' H2) as (preds & P & B).
    assert (G' := G). destruct G' as (_ & _ & _ & Hn & HY).
    destruct (lp_prediction g cw x y w (sample_valid g x y G) Hk Hw HY b h HF Hn Hc HP H1) as (y' & E & _ & B').
    exists (y' :: preds). split; [constructor; assumption|]. unfold loss_sum. cbn [combine map]. change (lsum (?a :: ?l)) with (a + lsum l).
    fold (loss_sum (g_task g cw) Ys preds). replace ((1 + 1) * (h + lsum hs')) with ((1 + 1) * h + (1 + 1) * lsum hs') by ring.
    apply Qcplus_le_compat; assumption.
Qed.
Lemma hinges_nonneg g cw w Xs Ys hs : (0 < g_states g)%nat -> length w = g_size g -> Forall2 (graph_sample g) Xs Ys ->
  hinges (relaxed_task g cw) w (combine Xs (map RLabels Ys)) hs -> 0 <= lsum hs.
Proof.
  intros Hk Hw H. revert hs. induction H as [|x y Xs Ys G H IH]; intros hs HH.
  - inversion HH; subst. apply Qcle_refl.
  - cbn [map combine] in HH. inversion HH as [|? h ? hs' H1 H2]; subst. specialize (IH _ H2). change (lsum (h :: hs')) with (h + lsum hs').
    assert (0 <= h). { destruct H1 as [_ M]. specialize (M (RLabels y) ltac:(apply G)). revert M. unfold margin. cbn [t_loss relaxed_task fst snd].
      rewrite hamming_refl. generalize (dot w (t_feat (relaxed_task g cw) x (RLabels y))). intros; qclra. }
    qclra.
Qed.
Lemma relaxed_one_slack b g cw ceq solve prm Xs Ys R2 L st reason :
  let K := o_C prm * ofN (length Xs) in let T := relaxed_task g cw in let m := relaxed_smodel b (Name "lp") g cw in
  let S := combine Xs (map RLabels Ys) in
  finds_optima (b_lp b) -> qp_exact solve -> (0 < g_states g)%nat -> length cw = g_states g ->
  (forall s, (s < g_states g)%nat -> 0 <= get1 cw s) -> (0 < length Xs)%nat -> Forall2 (graph_sample g) Xs Ys ->
  0 < o_C prm -> 0 < o_tol prm -> 0 < R2 -> o_window prm = 0%nat -> o_neg prm = None ->
  (forall p r, In p S -> t_label T (fst p) r ->
     normsq (vsub (t_feat T (fst p) (snd p)) (t_feat T (fst p) r)) <= R2 /\ t_loss T (snd p) r <= L) ->
  K * L + qp_reg * (K * K) / (1 + 1) < ofN (o_max_iter prm - 1) * (gain K (o_tol prm) R2 - qp_reg * (K * K) / (1 + 1)) ->
  os_fit ceq solve prm (base_bmodel m) None Xs (map RLabels Ys) Cold = Ok (st, reason) ->
  exists hs preds, hinges T (o_w st) S hs /\
    (forall w' hs', length w' = g_size g -> hinges T w' S hs' ->
       primal_value (o_C prm) (o_w st) hs <= primal_value (o_C prm) w' hs' + (K * o_tol prm + qp_reg * (K * K))) /\
    predicts m (o_w st) Xs preds /\ loss_sum (g_task g cw) Ys preds <= (1 + 1) * lsum hs.
Proof.
  intros K T m S HF HQ Hk Hc HP Hn HS HC HT HR HW HN HB HM E.
  assert (HO : oracle_exact m T (g_size g) S).
  { apply relaxed_oracle; [exact Hk|exact Hc|exact HS|]. intros x Hx. clear - HF HS Hx.
    induction HS as [|x' y Xs Ys G HS IH]; [destruct Hx|]. destruct Hx as [<-|Hx]; [|apply IH, Hx].
    apply lp_solves; [exact HF|apply G|apply G]. }
  assert (HL : length Xs = length (map RLabels Ys)).
  { rewrite map_length. clear - HS. induction HS; cbn; congruence. }
  assert (BE := base_batch_exact T (g_size g) Xs (map RLabels Ys) m HL eq_refl HO).
  rewrite <- (Nat.sub_0_r (o_max_iter prm - 1)) in HM.
  destruct (one_near T (g_size g) ceq solve prm Xs (map RLabels Ys) R2 L (base_bmodel m) None st reason Hn HC HT HR HW HN HQ HB BE
    (or_intror eq_refl) ltac:(discriminate) HM E) as (Lw & hs & HH & MM).
  destruct (predictions b g cw (o_w st) Xs Ys hs HF Hk Hc HP Lw HS HH) as (preds & P & BB).
  exists hs, preds. repeat split; assumption.
Qed.

(** chains: max-product solves the relaxation *)
Lemma chain_acyclic n : acyclic (chain_edges n).
Proof.
  intros e a b E C. unfold chain_edges in *.
  assert (He : (e < n - 1)%nat). { rewrite <- (seq_length (n - 1) 0), <- (map_length (fun i => (i, S i))). apply nth_error_Some. congruence. }
  rewrite nth_error_map, (nth_error_nth' _ 0%nat), seq_nth in E by (rewrite ?seq_length; exact He).
  injection E as <- <-. cbn [Nat.add] in C.
  assert (I : forall x y, connected (firstn e (map (fun i => (i, S i)) (seq 0 (n - 1))) ++ skipn (S e) (map (fun i => (i, S i)) (seq 0 (n - 1)))) x y ->
    ((x <= e)%nat <-> (y <= e)%nat)).
  { intros x y H. induction H as [x y H|x|x y _ IH|x y z _ IH1 _ IH2]; [|tauto|tauto|tauto].
    rewrite firstn_map, skipn_map in H. apply in_app_iff in H. destruct H as [H|H]; apply in_map_iff in H; destruct H as (i & H & Hi); injection H as <- <-.
    - assert (i < e)%nat; [|lia]. clear - He Hi. replace (n - 1)%nat with (e + (n - 1 - e))%nat in Hi by lia.
      rewrite seq_app, firstn_app, seq_length, Nat.sub_diag, firstn_O, app_nil_r in Hi.
      rewrite firstn_all2 in Hi by (rewrite seq_length; lia). apply in_seq in Hi. lia.
    - assert (e < i)%nat; [|lia]. clear - He Hi. replace (n - 1)%nat with (S e + (n - 1 - S e))%nat in Hi by lia.
      rewrite seq_app, skipn_app, seq_length, Nat.sub_diag, skipn_O, skipn_all2 in Hi by (rewrite seq_length; lia). cbn [app] in Hi. apply in_seq in Hi. lia. }
  specialize (I _ _ C). lia.
Qed.
Lemma chain_solves b n : (0 < n)%nat -> solves_relaxation b (Name "max-product") n (chain_edges n).
Proof.
  intro Hn. assert (G : graph_edges n (chain_edges n)) by apply chain_edges_ok.
  apply labels_solve; [exact G|apply chain_acyclic|]. intros U m k (OU & RU & CU) (OM & RM & CM) Hk.
  assert (LE : length (chain_edges n) = (n - 1)%nat) by (unfold chain_edges; rewrite map_length, seq_length; reflexivity).
  destruct (max_product_chain n k U (Pw2 m) 30 (Q2Qc (1 # 2)) default_tol OU RU CU Hn Hk) as (y & E & M); [split; assumption|].
  exists y, None. split; [|exact M]. cbn. rewrite E. reflexivity.
Qed.

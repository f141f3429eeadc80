(** Training with relaxed inference: the relaxed hinge loss, predictions, bounds. *)
From Coq Require Import String.
From Verif Require Import Model.LP Model.Inference Model.CRF Model.Loss Model.RelaxedCRF Spec.Energy Spec.SolverSpec Spec.LocalPolytope Spec.LPSpec
  Spec.GraphSpec Spec.GraphTheory Spec.LossSpec Spec.BinaryLPSpec Spec.NSlackSpec Spec.OneSlackSpec Spec.CuttingPlaneSpec Spec.RelaxedSpec
  Proofs.Arrays Proofs.EnergyProofs Proofs.GraphCRFProofs Proofs.LossProofs Proofs.CRFProofs Proofs.LPProofs Proofs.LPProofs2
  Proofs.InferenceProofs Proofs.ForestLP Proofs.ForestLP2 Proofs.BinaryLP3 Proofs.InstanceProofs Proofs.LearnerProofs Proofs.OneSlackProofs2
  Proofs.CuttingPlane4 Proofs.RelaxedTask Proofs.RelaxedLP.
Open Scope Qc_scope.

(** the unaries after loss augmentation *)
Definition augmented (U : nat -> nat -> Qc) (c : nat -> Qc) (y : list nat) (i s : nat) : Qc :=
  U i s + if (lab y i =? s)%nat then 0 else c (lab y i).

Section hinge.
Variables (g : graph_crf) (cw : list Qc) (x : graph_x) (y : list nat) (w : list Qc).
Notation n := (mrows (gx_features x)). Notation k := (g_states g). Notation T := (relaxed_task g cw).
Hypothesis (Hx : valid_x g x) (Hk : (0 < k)%nat) (Hw : length w = g_size g) (HY : labelling n k y).

Lemma relaxed_margin r : t_label T x r ->
  margin T w x (RLabels y) r = marginal_score n k (gx_edges x) (augmented (node_scores g x w) (get1 cw) y) (edge_scores g w)
      (node_marginals r) (edge_marginals k (gx_edges x) r) - dot w (t_feat T x (RLabels y)).
Proof.
  intro Hr. unfold margin. rewrite (feat_score g cw x Hx Hk r w Hr Hw), (loss_value g cw x y r HY Hr).
  rewrite (marginal_augment g cw x (node_scores g x w) (augmented (node_scores g x w) (get1 cw) y) (edge_scores g w) y _ _ HY
    (label_polytope g cw x Hx r Hr)) by reflexivity.
  generalize (dot w (t_feat T x (RLabels y))). intros. ring.
Qed.
Lemma labels_margin z : margin T w x (RLabels y) (RLabels z) = margin (g_task g cw) w x y z.
Proof. reflexivity. Qed.
Lemma labels_margin_score z : labelling n k z ->
  margin (g_task g cw) w x y z =
  score n (gx_edges x) (augmented (node_scores g x w) (get1 cw) y) (edge_scores g w) (lab z) - dot w (t_feat T x (RLabels y)).
Proof.
  intro Hz. rewrite <- labels_margin, (relaxed_margin (RLabels z) Hz). f_equal. cbn [node_marginals edge_marginals].
  apply one_hot_score; [apply Hx|]. intros i Hi. apply (lab_lt n k z i Hz Hi).
Qed.
(** the relaxed hinge is an upper bound of the hinge *)
Lemma hinge_le h h' : is_hinge (g_task g cw) w x y h -> is_hinge T w x (RLabels y) h' -> h <= h'.
Proof. intros [(z & Hz & <-) _] [_ M]. rewrite <- labels_margin. apply M, Hz. Qed.
Lemma hinge_nonneg h : is_hinge (g_task g cw) w x y h -> 0 <= h.
Proof.
  intros [_ M]. specialize (M y HY). revert M. unfold margin. cbn [t_loss g_task]. rewrite hamming_refl.
  generalize (dot w (t_feat (g_task g cw) x y)). intros; qclra.
Qed.
(** no gap, no difference *)
Lemma hinge_same h h' :
  (forall mu nu, local_polytope n k (gx_edges x) mu nu -> exists z, labelling n k z /\
     marginal_score n k (gx_edges x) (augmented (node_scores g x w) (get1 cw) y) (edge_scores g w) mu nu <=
     score n (gx_edges x) (augmented (node_scores g x w) (get1 cw) y) (edge_scores g w) (lab z)) ->
  is_hinge (g_task g cw) w x y h -> is_hinge T w x (RLabels y) h' -> h' = h.
Proof.
  intros NG H H'. apply Qcle_antisym; [|apply hinge_le; assumption]. destruct H' as [(r & Hr & <-) _].
  destruct (NG _ _ (label_polytope g cw x Hx r Hr)) as (z & Hz & B). destruct H as [_ M].
  eapply Qcle_trans; [|apply (M z Hz)]. rewrite (relaxed_margin r Hr), (labels_margin_score z Hz).
  revert B. generalize (marginal_score n k (gx_edges x) (augmented (node_scores g x w) (get1 cw) y) (edge_scores g w) (node_marginals r) (edge_marginals k (gx_edges x) r)).
  generalize (score n (gx_edges x) (augmented (node_scores g x w) (get1 cw) y) (edge_scores g w) (lab z)), (dot w (t_feat T x (RLabels y))).
  intros; qclra.
Qed.
Lemma hinge_forest h h' : acyclic (gx_edges x) ->
  is_hinge (g_task g cw) w x y h -> is_hinge T w x (RLabels y) h' -> h' = h.
Proof. intros A. apply hinge_same. intros mu nu L. apply (forest_lp_value n k (gx_edges x) _ _ mu nu); [apply Hx|exact A|exact L]. Qed.
Lemma hinge_attractive h h' : k = 2%nat ->
  edge_scores g w 0 0 1 + edge_scores g w 0 1 0 <= edge_scores g w 0 0 0 + edge_scores g w 0 1 1 ->
  is_hinge (g_task g cw) w x y h -> is_hinge T w x (RLabels y) h' -> h' = h.
Proof.
  intros E A. apply hinge_same. rewrite E. intros mu nu L.
  destruct (relaxation_tight n (gx_edges x) (augmented (node_scores g x w) (get1 cw) y) (edge_scores g w) mu nu) as (z & Hz & B);
    [apply Hx|intros e _; exact A|exact L|]. exists z. split; [apply Hz|exact B].
Qed.
(** the relaxed hinge bounds the loss of every best point of the relaxation *)
Lemma hinge_loss h' r : t_label T x r -> (forall r', t_label T x r' -> dot w (t_feat T x r') <= dot w (t_feat T x r)) ->
  is_hinge T w x (RLabels y) h' -> t_loss T (RLabels y) r <= h'.
Proof.
  intros Hr B [_ M]. specialize (M r Hr). specialize (B (RLabels y) HY). revert M B. unfold margin.
  generalize (dot w (t_feat T x (RLabels y))), (dot w (t_feat T x r)), (t_loss T (RLabels y) r). intros; qclra.
Qed.
(** predictions of the default call *)
Lemma lp_prediction b h' : finds_optima (b_lp b) -> (0 < n)%nat -> length cw = k -> (forall s, (s < k)%nat -> 0 <= get1 cw s) ->
  is_hinge T w x (RLabels y) h' ->
  exists y', sm_inference (relaxed_smodel b (Name "lp") g cw) x w = Ok (RLabels y') /\ labelling n k y' /\
    t_loss (g_task g cw) y y' <= (1 + 1) * h'.
Proof.
  intros HF Hn Hc HP HH.
  destruct (g_potentials_ok g x w Hx Hw) as (U & P & EP & OU & RU & CU & OP & RP & CP & GU & GP).
  destruct (lp_relaxed b U P (gx_edges x) n k HF (vx_edges _ _ Hx) Hn) as (um & pm & e & E & B); [repeat split; assumption || apply OU|repeat split; assumption || apply OP|exact Hk|].
  assert (HB := B). destruct B as (S1 & S2 & L & M).
  destruct (argmax_rows_ok um n k (proj1 (proj2 S1)) (proj2 (proj2 S1)) Hk) as (y' & EA & _ & _).
  destruct (rounding_loss n k cw (gx_edges x) um pm y y' Hk S1 L HP HY EA) as [HY' RL].
  exists y'. split.
  { cbn [sm_inference relaxed_smodel]. unfold g_dispatch_inference. rewrite EP. cbn [bind fst snd].
    assert (E2 := inference_lp_labels _ _ _ _ _ _ _ E). rewrite EA in E2. cbn [bind] in E2.
    change (inference_dispatch b (Single U (Pw2 P) (gx_edges x)) (Name "lp") false [("relaxed"%string, VBool false)]) with
      (let! r := inference_lp (b_lp b) U (Pw2 P) (gx_edges x) false in
       with_energy false (Ok (match fst r with Labels y => RLabels y | Marginals um pm => RMarginals um pm end, snd r))).
    rewrite E2. reflexivity. }
  split; [exact HY'|]. cbn [t_loss g_task]. rewrite (proj1 HY).
  assert (HR : t_label T x (RMarginals um pm)) by (cbn; split; [exact S1|]; split; [exact S2|exact L]).
  assert (LL := hinge_loss h' (RMarginals um pm) HR). cbn [t_loss relaxed_task] in LL.
  eapply Qcle_trans; [exact RL|]. rewrite !(Qcmult_comm (1 + 1)). apply Qcmult_le_compat_r; [|vm_compute; discriminate]. apply LL; [|exact HH].
  intros r' Hr'. rewrite !(feat_score g cw x Hx Hk _ w) by assumption. cbn [node_marginals edge_marginals].
  assert (EX : forall mu nu, marginal_score n k (gx_edges x) (node_scores g x w) (edge_scores g w) mu nu =
                 marginal_score n k (gx_edges x) (mget U) (fun _ => mget P) mu nu).
  { intros mu nu. apply marginal_score_ext; auto.
    - intros i s Hi Hs. symmetry. apply GU; assumption.
    - intros e0 s t He Hs Ht. symmetry. apply GP; assumption. }
  rewrite !EX. apply M, label_polytope with (cw := cw); [exact Hx|exact Hr'].
Qed.
End hinge.

(** ** bounds of features and losses *)
Definition unit (d j : nat) : list Qc := tab1 d (fun i => ind (i =? j)%nat).
Lemma dot_unit d j v : length v = d -> (j < d)%nat -> dot (unit d j) v = get1 v j.
Proof.
  intros L Hj. unfold unit. rewrite dot_get by (rewrite tab1_length; congruence). rewrite tab1_length.
  rewrite (sumn_ext d _ (fun i => ind (i =? j)%nat * get1 v i)) by (intros i Hi; rewrite get1_tab1 by exact Hi; reflexivity).
  apply sumn_pick. exact Hj.
Qed.
Lemma scores_bounded g cw x w : valid_x g x -> (0 < g_states g)%nat -> length w = g_size g ->
  exists B, forall r, t_label (relaxed_task g cw) x r -> dot w (t_feat (relaxed_task g cw) x r) <= B.
Proof.
  intros Hx Hk Hw. eexists. intros r Hr. rewrite (feat_score g cw x Hx Hk r w Hr Hw).
  apply (marginal_score_bounded _ _ _ _ _ _ _ (vx_edges _ _ Hx) (label_polytope g cw x Hx r Hr)).
Qed.
Lemma entries_bounded g cw x j : valid_x g x -> (0 < g_states g)%nat -> (j < g_size g)%nat ->
  exists B, 0 <= B /\ forall r, t_label (relaxed_task g cw) x r ->
    get1 (t_feat (relaxed_task g cw) x r) j <= B /\ - B <= get1 (t_feat (relaxed_task g cw) x r) j.
Proof.
  intros Hx Hk Hj.
  destruct (scores_bounded g cw x (unit (g_size g) j) Hx Hk (tab1_length _ _)) as [B1 H1].
  destruct (scores_bounded g cw x (vscale (- (1)) (unit (g_size g) j)) Hx Hk) as [B2 H2].
  { unfold vscale, unit. rewrite map_length. apply tab1_length. }
  exists (Qcmax 0 (Qcmax B1 B2)). split.
  { unfold Qcmax at 1. destruct (Qcleb_spec 0 (Qcmax B1 B2)); [assumption|apply Qcle_refl]. }
  intros r Hr. specialize (H1 r Hr). specialize (H2 r Hr). assert (L := proj2 (feat_ok g cw x Hx Hk r Hr)).
  rewrite dot_vscale_l in H2. rewrite (dot_unit _ _ _ L Hj) in H1, H2.
  replace (- (1) * get1 (t_feat (relaxed_task g cw) x r) j) with (- get1 (t_feat (relaxed_task g cw) x r) j) in H2 by ring.
  revert H1 H2. generalize (get1 (t_feat (relaxed_task g cw) x r) j). intros v H1 H2. unfold Qcmax.
  destruct (Qcleb_spec B1 B2) as [A|A].
  - destruct (Qcleb_spec 0 B2); split; qclra.
  - destruct (Qcleb_spec 0 B1); split; qclra.
Qed.
Lemma square_le (v B : Qc) : v <= B -> - B <= v -> v * v <= B * B.
Proof.
  intros H1 H2. assert (D : 0 <= (B - v) * (B + v)) by (apply Qcmult_nonneg; qclra).
  replace ((B - v) * (B + v)) with (B * B - v * v) in D by ring. revert D; generalize (B * B), (v * v); intros; qclra.
Qed.
Lemma features_bounded g cw x : valid_x g x -> (0 < g_states g)%nat ->
  exists R, 0 < R /\ forall r r', t_label (relaxed_task g cw) x r -> t_label (relaxed_task g cw) x r' ->
    normsq (vsub (t_feat (relaxed_task g cw) x r) (t_feat (relaxed_task g cw) x r')) <= R.
Proof.
  intros Hx Hk. set (d := g_size g).
  assert (E : forall m, (m <= d)%nat -> exists R, 0 < R /\ forall r r', t_label (relaxed_task g cw) x r -> t_label (relaxed_task g cw) x r' ->
    sumn m (fun j => (get1 (t_feat (relaxed_task g cw) x r) j - get1 (t_feat (relaxed_task g cw) x r') j) *
                     (get1 (t_feat (relaxed_task g cw) x r) j - get1 (t_feat (relaxed_task g cw) x r') j)) <= R).
  { induction m as [|m IH]; intro Hm.
    - exists 1. split; [reflexivity|]. intros. rewrite sumn_O. vm_compute. discriminate.
    - destruct IH as (R & PR & HR); [lia|]. destruct (entries_bounded g cw x m Hx Hk ltac:(fold d; lia)) as (B & PB & HB).
      exists (R + (B + B) * (B + B)). split.
      { assert (0 <= (B + B) * (B + B)) by (apply Qcmult_nonneg; qclra). revert H. generalize ((B + B) * (B + B)). intros; qclra. }
      intros r r' Hr Hr'. rewrite sumn_S. apply Qcplus_le_compat; [apply HR; assumption|].
      destruct (HB r Hr), (HB r' Hr'). apply square_le; qclra. }
  destruct (E d (le_n d)) as (R & PR & HR). exists R. split; [exact PR|]. intros r r' Hr Hr'.
  assert (L := proj2 (feat_ok g cw x Hx Hk r Hr)). assert (L' := proj2 (feat_ok g cw x Hx Hk r' Hr')).
  unfold normsq. rewrite dot_get by reflexivity.
  assert (LV : length (vsub (t_feat (relaxed_task g cw) x r) (t_feat (relaxed_task g cw) x r')) = d).
  { unfold vsub. rewrite zipw_length; unfold d; congruence. }
  rewrite LV. eapply Qcle_trans; [|apply (HR r r' Hr Hr')]. apply sumn_le. intros j Hj.
  rewrite get1_vsub by congruence. apply Qcle_refl.
Qed.

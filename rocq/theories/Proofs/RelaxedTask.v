(** The relaxed task is computed by the model, and relaxed inference solves it exactly. *)
From Coq Require Import String.
From Verif Require Import Model.LP Model.Inference Model.CRF Model.Loss Model.RelaxedCRF Spec.Energy Spec.SolverSpec Spec.LocalPolytope Spec.LPSpec
  Spec.GraphSpec Spec.LossSpec Spec.BinaryLPSpec Spec.NSlackSpec Spec.RelaxedSpec
  Proofs.Arrays Proofs.EnergyProofs Proofs.GraphCRFProofs Proofs.LossProofs Proofs.CRFProofs Proofs.LPProofs Proofs.LPProofs2
  Proofs.InferenceProofs Proofs.ForestLP Proofs.ForestLP2 Proofs.BinaryLP3 Proofs.InstanceProofs Proofs.LearnerProofs Proofs.FourierMotzkin.
Open Scope Qc_scope.

Lemma ravel_length m r c : shaped m r c -> length (ravel m) = (r * c)%nat.
Proof. intros ((H1 & H2) & <- & <-). unfold ravel. rewrite (concat_length_rows _ _ H2), H1. reflexivity. Qed.
Lemma ravel_get m r c i j : shaped m r c -> (i < r)%nat -> (j < c)%nat -> get1 (ravel m) (i * c + j) = mget m i j.
Proof. intros ((H1 & H2) & <- & <-) Hi Hj. unfold ravel. rewrite get1_concat; [reflexivity|exact H2|lia|exact Hj]. Qed.

(** ** features and losses *)
Section task.
Variables (g : graph_crf) (cw : list Qc) (x : graph_x).
Notation n := (mrows (gx_features x)). Notation k := (g_states g). Notation T := (relaxed_task g cw).
Hypothesis (Hx : valid_x g x) (Hk : (0 < k)%nat).

Lemma label_polytope r : t_label T x r -> local_polytope n k (gx_edges x) (node_marginals r) (edge_marginals k (gx_edges x) r).
Proof.
  destruct r as [y|um pm|? ?]; cbn [t_label relaxed_task]; intro H.
  - apply one_hot_local; [apply Hx|]. intros i Hi. apply (lab_lt n k y i H Hi).
  - apply H.
  - destruct H.
Qed.
Lemma feat_ok r : t_label T x r ->
  (let! l := result_label r in g_joint_feature g x l) = Ok (t_feat T x r) /\ length (t_feat T x r) = g_size g.
Proof.
  destruct r as [y|um pm|? ?]; cbn [t_label t_feat relaxed_task result_label bind]; intro H.
  - destruct (g_joint_feature_discrete g x (vzero (g_size g)) y Hx (vzero_length _) H) as (psi & E & L & _). rewrite E. auto.
  - destruct H as (S1 & S2 & _).
    destruct (g_joint_feature_relaxed g x (vzero (g_size g)) (ravel um) (ravel pm) (length (gx_edges x)) Hx (vzero_length _) Hk
      (ravel_length _ _ _ S1) (ravel_length _ _ _ S2)) as (psi & E & L & _). rewrite E. auto.
  - destruct H.
Qed.
Lemma feat_score r w : t_label T x r -> length w = g_size g ->
  dot w (t_feat T x r) = marginal_score n k (gx_edges x) (node_scores g x w) (edge_scores g w)
                           (node_marginals r) (edge_marginals k (gx_edges x) r).
Proof.
  destruct r as [y|um pm|? ?]; cbn [t_label t_feat relaxed_task node_marginals edge_marginals]; intros H Hw.
  - destruct (g_joint_feature_discrete g x w y Hx Hw H) as (psi & E & L & S). rewrite E. cbn [ok_or]. rewrite S.
    symmetry. apply one_hot_score; [apply Hx|]. intros i Hi. apply (lab_lt n k y i H Hi).
  - destruct H as (S1 & S2 & _).
    destruct (g_joint_feature_relaxed g x w (ravel um) (ravel pm) (length (gx_edges x)) Hx Hw Hk
      (ravel_length _ _ _ S1) (ravel_length _ _ _ S2)) as (psi & E & L & S). rewrite E. cbn [ok_or]. rewrite S.
    unfold marginal_score. f_equal; apply sumn_ext.
    + intros i Hi. apply sumn_ext. intros s Hs. rewrite (ravel_get um n k i s S1 Hi Hs). reflexivity.
    + intros e He. apply sumn_ext. intros s Hs. apply sumn_ext. intros t Ht. unfold pair_of.
      rewrite <- (ravel_get pm (length (gx_edges x)) (k * k) e (s * k + t) S2 He) by nia.
      replace ((e * k + s) * k + t)%nat with (e * (k * k) + (s * k + t))%nat by ring. reflexivity.
  - destruct H.
Qed.
Lemma loss_value y r : labelling n k y -> t_label T x r ->
  t_loss T (RLabels y) r = relaxed_loss (get1 cw) y (node_marginals r).
Proof.
  destruct r as [y'|um pm|? ?]; cbn [t_label t_loss relaxed_task node_marginals]; intros HY H; [|reflexivity|destruct H].
  unfold hamming, relaxed_loss. apply sumn_ext. intros i Hi. unfold one_hot_mu.
  destruct (lab y i =? lab y' i)%nat; unfold ind; ring.
Qed.
Lemma loss_ok y r : length cw = k -> labelling n k y -> t_label T x r ->
  (if is_tuple r then r_continuous_loss cw (RLabels y) r else r_loss cw (RLabels y) r) = Ok (t_loss T (RLabels y) r) /\
  r_loss cw (RLabels y) r = Ok (t_loss T (RLabels y) r).
Proof.
  intros Hc HY. destruct r as [y'|um pm|? ?]; cbn [t_label relaxed_task is_tuple r_continuous_loss r_loss truth bind t_loss]; intro H; [| |destruct H].
  - rewrite (loss_weighted n k cw y y' Hc HY (proj1 H)), (proj1 HY). auto.
  - destruct H as ((_ & R & C) & _). rewrite (continuous_loss_weighted n k cw y um Hc HY R C).
    unfold relaxed_loss. rewrite (proj1 HY). auto.
Qed.
Lemma relaxed_implements b meth y : length cw = k -> labelling n k y -> implements (relaxed_smodel b meth g cw) T (g_size g) x (RLabels y).
Proof.
  intros Hc HY. split; [exact HY|]. split; [cbn [t_loss relaxed_task]; apply hamming_refl|]. intros r Hr.
  destruct (feat_ok r Hr) as [E L]. split; [exact L|]. split; [exact E|]. apply (loss_ok y r Hc HY Hr).
Qed.

(** ** loss-augmented inference *)
Lemma marginal_augment U U' P y mu nu : labelling n k y -> local_polytope n k (gx_edges x) mu nu ->
  (forall i s, (i < n)%nat -> (s < k)%nat -> U' i s = U i s + if (lab y i =? s)%nat then 0 else get1 cw (lab y i)) ->
  marginal_score n k (gx_edges x) U' P mu nu = marginal_score n k (gx_edges x) U P mu nu + relaxed_loss (get1 cw) y mu.
Proof.
  intros HY L H. unfold marginal_score, relaxed_loss. rewrite (proj1 HY).
  assert (E : sumn n (fun i => sumn k (fun s => mu i s * U' i s)) =
    sumn n (fun i => sumn k (fun s => mu i s * U i s)) + sumn n (fun i => get1 cw (lab y i) * (1 - mu i (lab y i)))).
  { rewrite <- sumn_plus. apply sumn_ext. intros i Hi.
    assert (HL := lab_lt n k y i HY Hi).
    rewrite (sumn_ext k (fun s => mu i s * U' i s) (fun s => mu i s * U i s + (get1 cw (lab y i) * mu i s - ind (s =? lab y i)%nat * (get1 cw (lab y i) * mu i s)))).
    - rewrite sumn_plus. f_equal. rewrite sumn_minus. rewrite (sumn_pick k (lab y i) (fun s => get1 cw (lab y i) * mu i s) HL).
      rewrite sumn_mult_l. rewrite (lpo_one _ _ _ _ _ L i Hi). ring.
    - intros s Hs. rewrite (H i s Hi Hs), (Nat.eqb_sym s). destruct (lab y i =? s)%nat; unfold ind; ring. }
  rewrite E. ring.
Qed.
Lemma best_relaxed_label U P r : best_relaxed n k (gx_edges x) U P r -> t_label T x r /\
  forall mu nu, local_polytope n k (gx_edges x) mu nu ->
    marginal_score n k (gx_edges x) U P mu nu <= marginal_score n k (gx_edges x) U P (node_marginals r) (edge_marginals k (gx_edges x) r).
Proof.
  destruct r as [y|um pm|? ?]; cbn [best_relaxed t_label relaxed_task node_marginals edge_marginals]; intro H; [| |destruct H].
  - destruct H as (HY & _ & M). split; [exact HY|exact M].
  - destruct H as (S1 & S2 & L & M). split; [split; [exact S1|]; split; [exact S2|exact L]|exact M].
Qed.
Lemma relaxed_exact_laug b meth y w : solves_relaxation b meth n (gx_edges x) -> length cw = k -> length w = g_size g -> labelling n k y ->
  exact_laug (relaxed_smodel b meth g cw) T w x (RLabels y).
Proof.
  intros HS Hc Hw HY. destruct (g_potentials_ok g x w Hx Hw) as (U & P & EP & OU & RU & CU & OP & RP & CP & GU & GP).
  destruct (loss_augment_ok U y cw n k RU CU Hc HY) as (U' & EA & OA & RA & CA & GA).
  destruct (HS U' P k) as (r & e & ED & HB); [repeat split; assumption || apply OA|repeat split; assumption || apply OP|exact Hk|].
  destruct (best_relaxed_label _ _ _ HB) as [HL HM].
  exists r. split.
  { cbn [sm_laug relaxed_smodel truth bind]. unfold g_dispatch_laug. rewrite EP. cbn [bind fst snd]. rewrite EA. cbn [bind]. rewrite ED. reflexivity. }
  split; [exact HL|].
  assert (V : forall r', t_label T x r' -> dot w (t_feat T x r') + t_loss T (RLabels y) r' =
    marginal_score n k (gx_edges x) (mget U') (fun _ => mget P) (node_marginals r') (edge_marginals k (gx_edges x) r')).
  { intros r' Hr'. rewrite (feat_score r' w Hr' Hw), (loss_value y r' HY Hr').
    rewrite (marginal_augment (mget U) (mget U') (fun _ => mget P) y _ _ HY (label_polytope r' Hr') GA). f_equal.
    apply marginal_score_ext; auto.
    - intros i s Hi Hs. symmetry. apply GU; assumption.
    - intros e0 s t He Hs Ht. symmetry. apply GP; assumption. }
  intros r' Hr'. rewrite !V by assumption. apply HM, label_polytope, Hr'.
Qed.
(** inference with relaxed=True *)
Lemma relaxed_exact_inference b meth w : solves_relaxation b meth n (gx_edges x) -> length w = g_size g ->
  exists r, g_dispatch_inference b meth g true x w = Ok r /\ best_relaxed n k (gx_edges x) (node_scores g x w) (edge_scores g w) r /\
    t_label T x r /\ forall r', t_label T x r' -> dot w (t_feat T x r') <= dot w (t_feat T x r).
Proof.
  intros HS Hw. destruct (g_potentials_ok g x w Hx Hw) as (U & P & EP & OU & RU & CU & OP & RP & CP & GU & GP).
  destruct (HS U P k) as (r & e & ED & HB); [repeat split; assumption || apply OU|repeat split; assumption || apply OP|exact Hk|].
  assert (EX : forall mu nu, marginal_score n k (gx_edges x) (mget U) (fun _ => mget P) mu nu =
                 marginal_score n k (gx_edges x) (node_scores g x w) (edge_scores g w) mu nu).
  { intros mu nu. apply marginal_score_ext; auto. intros e0 s t He Hs Ht. apply GP; assumption. }
  destruct (best_relaxed_label _ _ _ HB) as [HL HM]. exists r. split.
  { unfold g_dispatch_inference. rewrite EP. cbn [bind fst snd]. rewrite ED. reflexivity. }
  split.
  { destruct r as [y|um pm|? ?]; cbn [best_relaxed] in *; [| |exact HB].
    - destruct HB as (HY & L & M). split; [exact HY|]. split; [exact L|]. intros mu nu Lp. rewrite <- !EX. apply M, Lp.
    - destruct HB as (S1 & S2 & L & M). split; [exact S1|]. split; [exact S2|]. split; [exact L|]. intros mu nu Lp. rewrite <- !EX. apply M, Lp. }
  split; [exact HL|]. intros r' Hr'. rewrite !feat_score, <- !EX by assumption. apply HM, label_polytope, Hr'.
Qed.
End task.

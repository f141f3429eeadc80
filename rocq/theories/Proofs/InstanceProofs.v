From Verif Require Import Model.Instances Spec.TaskSpec Spec.TaskInstances Spec.SolverSpec Spec.GraphSpec
  Proofs.Arrays Proofs.EnergyProofs Proofs.GraphCRFProofs Proofs.LossProofs Proofs.CRFProofs Proofs.ChainProofs
  Proofs.LearnerProofs.

Lemma g_feat_ok g cw x y : valid_x g x -> labelling (mrows (gx_features x)) (g_states g) y ->
  g_joint_feature g x (Discrete y) = Ok (t_feat (g_task g cw) x y) /\ length (t_feat (g_task g cw) x y) = g_size g.
Proof.
  intros Hx Hy. destruct (g_joint_feature_discrete g x (vzero (g_size g)) y Hx (vzero_length _) Hy) as [psi [E [L _]]].
  cbn [t_feat g_task]. rewrite E. auto.
Qed.
Lemma g_feat_score g cw x y w : valid_x g x -> length w = g_size g -> labelling (mrows (gx_features x)) (g_states g) y ->
  dot w (t_feat (g_task g cw) x y) =
        score (mrows (gx_features x)) (gx_edges x)
              (fun i s => unary_score (g_features g) w (mget (gx_features x) i) s)
              (fun _ s t => pair_score (g_states g) (g_features g) (g_directed g) w s t)
              (lab y).
Proof.
  intros Hx Hw Hy. destruct (g_joint_feature_discrete g x w y Hx Hw Hy) as [psi [E [L S]]].
  cbn [t_feat g_task]. rewrite E. exact S.
Qed.

Lemma g_implements solve g cw x y : valid_x g x -> length cw = g_states g ->
  labelling (mrows (gx_features x)) (g_states g) y ->
  implements (g_smodel solve g cw) (g_task g cw) (g_size g) x y.
Proof.
  intros Hx Hc Hy. split; [exact Hy|]. split. { cbn [t_loss g_task]. apply hamming_refl. }
  intros y' Hy'. cbn [t_label g_task] in Hy'. destruct (g_feat_ok g cw x y' Hx Hy') as [E L].
  split; [exact L|]. split; [exact E|]. cbn [g_smodel sm_tuple sm_loss t_loss g_task].
  rewrite (loss_weighted _ _ cw y y' Hc Hy (proj1 Hy')). rewrite (proj1 Hy). reflexivity.
Qed.
Lemma g_exact_laug solve g cw x y w : exact_solver_on solve (mrows (gx_features x)) (gx_edges x) ->
  valid_x g x -> length w = g_size g -> (0 < g_states g)%nat -> length cw = g_states g ->
  labelling (mrows (gx_features x)) (g_states g) y ->
  exact_laug (g_smodel solve g cw) (g_task g cw) w x y.
Proof.
  intros Hs Hx Hw Hk Hc Hy. destruct (g_loss_augmented_exact solve g cw x y w Hs Hx Hw Hk Hc Hy) as [yh [psi [l [E [L [F [G M]]]]]]].
  exists yh. split; [exact E|]. split; [exact L|]. intros y' Hy'. cbn [t_label g_task] in Hy'.
  destruct (g_feat_ok g cw x y' Hx Hy') as [E' _]. destruct (g_feat_ok g cw x yh Hx L) as [E'' _].
  assert (EE : psi = t_feat (g_task g cw) x yh) by congruence. subst psi.
  rewrite (loss_weighted _ _ cw y yh Hc Hy (proj1 L)) in G. injection G as <-.
  cbn [t_loss g_task]. rewrite (proj1 Hy).
  apply (M y' _ _ Hy' E'). apply (loss_weighted _ _ cw y y' Hc Hy (proj1 Hy')).
Qed.
Lemma g_exact_inference solve g cw x w : exact_solver_on solve (mrows (gx_features x)) (gx_edges x) ->
  valid_x g x -> length w = g_size g -> (0 < g_states g)%nat ->
  exact_inference (g_smodel solve g cw) (g_task g cw) w x.
Proof.
  intros Hs Hx Hw Hk. destruct (g_inference_exact solve g x w Hs Hx Hw Hk) as [yp [psi [E [L [F M]]]]].
  exists yp. split; [exact E|]. split; [exact L|]. intros y' Hy'. cbn [t_label g_task] in Hy'.
  destruct (g_feat_ok g cw x y' Hx Hy') as [E' _]. destruct (g_feat_ok g cw x yp Hx L) as [E'' _].
  assert (EE : psi = t_feat (g_task g cw) x yp) by congruence. subst psi. apply (M y' _ Hy' E').
Qed.

(** ChainCRF: the same with its own solver *)
Lemma chain_implements g cw x y : mat_ok x -> mcols x = g_features g -> length cw = g_states g ->
  labelling (mrows x) (g_states g) y ->
  implements (chain_smodel g cw) (chain_task g cw) (g_size g) x y.
Proof. intros H1 H2 Hc Hy. exact (g_implements max_product_solver g cw (chain_x x) y (chain_valid g x H1 H2) Hc Hy). Qed.
Lemma chain_exact_laug g cw x y w : mat_ok x -> mcols x = g_features g -> (0 < mrows x)%nat -> (0 < g_states g)%nat ->
  length w = g_size g -> length cw = g_states g -> labelling (mrows x) (g_states g) y ->
  exact_laug (chain_smodel g cw) (chain_task g cw) w x y.
Proof.
  intros H1 H2 Hn Hk Hw Hc Hy.
  refine (g_exact_laug max_product_solver g cw (chain_x x) y w _ (chain_valid g x H1 H2) Hw Hk Hc Hy).
  simpl. rewrite make_chain_edges_chain. apply max_product_exact_on_chain, Hn.
Qed.
Lemma chain_exact_inference g cw x w : mat_ok x -> mcols x = g_features g -> (0 < mrows x)%nat -> (0 < g_states g)%nat ->
  length w = g_size g ->
  exact_inference (chain_smodel g cw) (chain_task g cw) w x.
Proof.
  intros H1 H2 Hn Hk Hw.
  refine (g_exact_inference max_product_solver g cw (chain_x x) w _ (chain_valid g x H1 H2) Hw Hk).
  simpl. rewrite make_chain_edges_chain. apply max_product_exact_on_chain, Hn.
Qed.

From Coq Require Import ZArith Lia Permutation.
From Verif Require Import Spec.SimilarSpec Model.BatchInstances Proofs.Alike Proofs.Similar Proofs.Similar2 Proofs.Similar3 Proofs.OneNode.

Definition conv (p : list Qc * nat) : graph_x * list nat := (node_x (fst p), node_y (snd p)).
Section Fits.
Variables (k F : nat) (directed : bool) (cw : list Qc) (uniform : bool) (solve : solver).
Hypothesis Hk : (0 < k)%nat.
Hypothesis Hcw : length cw = k.
Hypothesis Hu : uniform = true -> forall s, (s < k)%nat -> get1 cw s = 1.
Hypothesis Hsolve : first_best_node k solve.
Notation g := (GraphCRF k F directed).
Notation m := (MC k F cw uniform false).
Notation d := (k * F)%nat.
Notation d' := (g_size g).
Notation V := (padded d d').
Notation L := (node_label k F).
Variable S : list (list Qc * nat).
Hypothesis HS : Forall (fun p => length (fst p) = F /\ (snd p < k)%nat) S.
Let HV : isometry d d' V := node_isometry k F directed cw Hk Hcw.
Let HM := node_models k F directed cw uniform solve Hk Hcw Hu.
Let HSS := node_samples k F directed cw uniform solve Hk Hcw Hsolve S HS.

Lemma maps_conv : map fst (map conv S) = map node_x (map fst S) /\ map snd (map conv S) = map node_y (map snd S).
Proof. rewrite !map_map. split; reflexivity. Qed.
Lemma node_predict x w : length x = F -> length w = d ->
  exists s, (s < k)%nat /\ mc_inference m x w = Ok s /\ g_inference solve g (node_x x) (w ++ vzero (d' - d)) = Ok (node_y s).
Proof.
  intros Hx Hw. assert (H := node_similar k F directed cw uniform solve Hk Hcw Hsolve x 0 Hx Hk). assert (R := proj1 (proj2 (proj2 H) w (w ++ vzero (d' - d)) (conj Hw eq_refl))).
  cbn [sm_inference mc_smodel g_smodel fst snd] in R. destruct (UnstructuredProofs.mc_inference_exact m x w Hk Hw Hx) as (s & E & _ & (Hs & _)). exists s. split; [exact Hs|]. split; [exact E|].
  rewrite E in R. destruct (g_inference _ _ _ _) as [y|]; [|contradiction]. destruct R as (_ & _ & _ & ->). reflexivity.
Qed.
Lemma node_ns yeq' qps prm : ns_neg prm = None -> (forall a b, yeq' (node_y a) (node_y b) = Nat.eqb a b) ->
  rel_res (fun q q' => V (st_w (fst (fst (fst q)))) (st_w (fst (fst (fst q')))) /\ snd (fst (fst q)) = snd (fst (fst q')) /\ snd (fst q) = snd (fst q') /\ snd q = snd q')
    (ns_fit Nat.eqb qps prm (mc_smodel m) None (map fst S) (map snd S) None None)
    (ns_fit yeq' qps prm (g_smodel solve g cw) None (map node_x (map fst S)) (map node_y (map snd S)) None None).
Proof.
  intros HN HQ. destruct maps_conv as [<- <-]. apply (rel_imp (fun q q' => similar_ns V L S (map conv S) (fst (fst (fst q))) (fst (fst (fst q'))) /\ snd (fst (fst q)) = snd (fst (fst q')) /\ snd (fst q) = snd (fst q') /\ snd q = snd q')).
  - intros q q' ((H & _) & H2). split; [exact H|exact H2].
  - apply (sim_ns_fit d d' V L HV S (map conv S) prm prm); try exact I; [|intros p p' y y' z z' _ (_ & _ & _ & ->) (_ & _ & _ & ->); symmetry; apply HQ|exact HSS].
    repeat split. unfold similar_neg. rewrite HN. exact I.
Qed.
Lemma node_os ceq' qps prm : S <> [] -> o_neg prm = None -> (forall a b, ceq' (node_y a) (node_y b) = Ok (Nat.eqb a b)) ->
  rel_res (fun q q' => V (o_w (fst q)) (o_w (fst q')) /\ o_curve (fst q) = o_curve (fst q') /\ o_primal (fst q) = o_primal (fst q') /\ snd q = snd q')
    (os_fit (fun a b => Ok (Nat.eqb a b)) qps prm (mc_bmodel m) None (map fst S) (map snd S) Cold)
    (os_fit ceq' qps prm (base_bmodel (g_smodel solve g cw)) None (map node_x (map fst S)) (map node_y (map snd S)) Cold).
Proof.
  intros NE HN HQ. destruct maps_conv as [<- <-]. apply (rel_imp (fun q q' => similar_os V L S (map conv S) (fst q) (fst q') /\ snd q = snd q')).
  - intros q q' ((H1 & _ & _ & _ & _ & H2 & H3 & _) & H4). auto.
  - apply (sim_os_fit d d' V L HV S (map conv S) prm prm); try exact I; [|exact NE|intros p p' y y' z z' _ (_ & _ & _ & ->) (_ & _ & _ & ->); symmetry; apply HQ|exact HM|exact (proj2 HSS)].
    repeat split. unfold similar_neg. rewrite HN. exact I.
Qed.
Lemma node_pc prm mloss old : 
  let q := pc_fit prm (mc_smodel m) (fun y => mloss (node_y y)) old S in let q' := pc_fit prm (g_smodel solve g cw) mloss old (map conv S) in
  V (pl_w (fst q)) (pl_w (fst q')) /\ pl_curve (fst q) = pl_curve (fst q') /\ pl_avg (fst q) = pl_avg (fst q') /\ snd q = snd q'.
Proof.
  apply (sim_pc_fit d d' V L HV _ _ (proj1 HSS)); [exact (proj2 HSS)|]. clear. induction S; cbn; constructor; [reflexivity|assumption].
Qed.
Lemma node_fw prm sched : S <> [] ->
  rel_res (similar_fwr V) (fw_fit prm (mc_bmodel m) (map fst S) (map snd S) sched None)
    (fw_fit prm (base_bmodel (g_smodel solve g cw)) (map node_x (map fst S)) (map node_y (map snd S)) sched None).
Proof. intro NE. destruct maps_conv as [<- <-]. apply (sim_fw_fit d d' V L HV _ _ HM); [exact (proj2 HSS)|exact NE|exact I]. Qed.
Lemma conv_of B B' : Forall2 (similar V L (mc_smodel m) (g_smodel solve g cw)) B B' -> B' = map conv B /\ Forall (fun p => length (fst p) = F /\ (snd p < k)%nat) B.
Proof.
  intro H. clear - H. induction H as [|[x y] [x' y'] B B' ((E & E1 & E2 & E3) & _) _ [I1 I2]]; [split; [reflexivity|constructor]|]. cbn [fst snd] in *. split.
  - cbn [map]. unfold conv at 1. cbn [fst snd]. congruence.
  - constructor; [cbn; auto|exact I2].
Qed.
Lemma node_sg prm shuf shuf' : S <> [] -> (forall it B, Permutation (shuf it B) B) -> (forall it B, shuf' it (map conv B) = map conv (shuf it B)) ->
  rel_res (similar_sgl V) (sg_fit prm (mc_bmodel m) shuf false S sg_new) (sg_fit prm (base_bmodel (g_smodel solve g cw)) shuf' false (map conv S) sg_new).
Proof.
  intros NE HP HE. apply (sim_sg_fit d d' V L HV _ _ HM); [exact (proj2 HSS)|exact NE| |split; [reflexivity|exact I]].
  intros it B B' HB. destruct (conv_of B B' HB) as [-> FB]. rewrite HE. split.
  - apply (node_samples k F directed cw uniform solve Hk Hcw Hsolve). rewrite Forall_forall in *. intros p Hp. apply FB. apply (Permutation_in _ (HP it B)). exact Hp.
  - intros NB E. apply NB. apply Permutation_nil. rewrite <- E. apply HP.
Qed.
End Fits.
Lemma node_broadcast k F cw uniform solve directed x y : (y < k)%nat -> (2 <= F)%nat -> length x = 1%nat ->
  (exists v, mc_joint_feature (MC k F cw uniform false) x y None = Ok v) /\
  sm_joint (g_smodel solve (GraphCRF k F directed) cw) (node_x x) (node_y y) None = Err ValueError.
Proof.
  intros Hy HF Hx. split.
  - unfold mc_joint_feature, bcast_row. cbn [mc_states mc_features mc_rescale]. apply Nat.ltb_lt in Hy. rewrite Hy, Hx. cbn [ensure bind]. replace (1 =? F)%nat with false by (symmetry; apply Nat.eqb_neq; lia). cbn [Nat.eqb bind]. eexists. reflexivity.
  - cbn [sm_joint g_smodel]. unfold g_joint_feature, g_check_x. cbn [node_x gx_features mcols g_features]. rewrite Hx. replace (1 =? F)%nat with false by (symmetry; apply Nat.eqb_neq; lia). reflexivity.
Qed.

(** LatentNodeCRF and EdgeFeatureLatentNodeCRF as tasks; initial completions; concrete models. *)
From Verif Require Import Model.LatentNode Spec.GraphSpec Spec.SolverSpec Model.ChainCRF
  Proofs.Arrays Proofs.EnergyProofs Proofs.GraphCRFProofs Proofs.LossProofs Proofs.ChainProofs Proofs.MaxProdProofs
  Proofs.LatentProofs Proofs.LatentProofs2 Proofs.LatentProofs4 Proofs.LatentNodeProofs Proofs.LatentNodeProofs2 Proofs.LatentNodeProofs3 Spec.LatentNodeSpec.

Lemma legal_iff L nv i s : legal L nv i s = true -> ((i < nv)%nat <-> (s < L)%nat).
Proof. unfold legal. destruct (Nat.ltb_spec i nv), (Nat.ltb_spec s L); cbn; intros Q; try discriminate Q; split; intros; lia || assumption. Qed.
Lemma small_zero a (R z : Qc) : 0 <= R -> 0 <= a -> a * (z + R + (z + R)) = a * (z + z) + a * (R + R) /\ 0 <= a * (R + R).
Proof. intros HR Ha. split; [ring|]. apply Qcmult_nonneg; [exact Ha|]. qclra. Qed.

Lemma states_pos (g : ln_crf) (x : ln_x) nv h : two_level (ln_labels g) (ln_hidden g) nv (lx_hidden x) h -> (0 < nv + lx_hidden x)%nat -> (0 < ln_states g)%nat.
Proof.
  intros H Hn. apply two_level_labelling in H. fold (ln_states g) in H. pose proof (labelling_lt _ _ _ 0%nat H Hn). lia.
Qed.

(** ** LatentNodeCRF *)
Section LNT.
Variables (g : ln_crf) (x : ln_x) (nv : nat) (w : list Qc) (R : Qc) (solve : solver).
Hypothesis HX : node_instance g x nv.
Hypothesis HW : length w = ln_size g.
Hypothesis HE : exact_solver_on solve (nv + lx_hidden x) (lx_edges x).
Hypothesis HR : 0 <= R.
Hypothesis HSM : node_small g x nv w R.
Lemma ln_completion_best y : (0 < nv + lx_hidden x)%nat -> labelling nv (ln_labels g) y -> (0 < ln_hidden g)%nat \/ lx_hidden x = 0%nat ->
  exists h, ln_latent solve g x y w = Ok h /\ completes (ln_labels g) (ln_hidden g) (lx_hidden x) y h /\
    forall h', completes (ln_labels g) (ln_hidden g) (lx_hidden x) y h' -> node_total g x nv w h' <= node_total g x nv w h.
Proof.
  intros Hn HY HK. destruct (two_level_exists _ _ _ _ _ HY HK) as [h0 H0]. destruct HSM as [B [B' [B0 [HB [HB' S]]]]].
  assert (HS : (0 < ln_states g)%nat) by (apply (states_pos g x nv h0); [exists y; auto|exact Hn]).
  apply (ln_latent_best g x nv HX w HW Hn HS B B' (fun i s Hi Hs HL => HB i s Hi Hs (legal_iff _ _ _ _ HL)) HB' B0 solve HE y h0 HY H0).
  destruct (small_zero (ofN (nv + lx_hidden x)) R B HR (ofN_nonneg _)) as [Q1 Q2]. rewrite Q1 in S.
  set (p := ofN (nv + lx_hidden x) * (B + B)) in *. set (q := ofN (nv + lx_hidden x) * (R + R)) in *. set (r := ofN (length (lx_edges x)) * (B' + B')) in *.
  clearbody p q r. generalize dependent (ofN 100). intros. qclra.
Qed.
Lemma ln_prediction_best h0 : two_level (ln_labels g) (ln_hidden g) nv (lx_hidden x) h0 -> (0 < nv + lx_hidden x)%nat ->
  exists h, ln_inference solve g x w = Ok h /\ two_level (ln_labels g) (ln_hidden g) nv (lx_hidden x) h /\
    forall h', two_level (ln_labels g) (ln_hidden g) nv (lx_hidden x) h' -> node_total g x nv w h' <= node_total g x nv w h.
Proof.
  intros H0 Hn. destruct HSM as [B [B' [B0 [HB [HB' S]]]]]. pose proof (states_pos g x nv h0 H0 Hn) as HS.
  apply (ln_inference_best g x nv HX w HW Hn HS B B' (fun i s Hi Hs HL => HB i s Hi Hs (legal_iff _ _ _ _ HL)) HB' B0 solve HE h0 H0).
  destruct (small_zero (ofN (nv + lx_hidden x)) R B HR (ofN_nonneg _)) as [Q1 Q2]. rewrite Q1 in S.
  set (p := ofN (nv + lx_hidden x) * (B + B)) in *. set (q := ofN (nv + lx_hidden x) * (R + R)) in *. set (r := ofN (length (lx_edges x)) * (B' + B')) in *.
  clearbody p q r. generalize dependent (ofN 100). intros. qclra.
Qed.
Lemma ln_augmented_best hy : weights_within g R -> two_level (ln_labels g) (ln_hidden g) nv (lx_hidden x) hy -> (0 < nv + lx_hidden x)%nat ->
  exists h, ln_loss_augmented_inference solve g x hy w = Ok h /\ two_level (ln_labels g) (ln_hidden g) nv (lx_hidden x) h /\
    forall h', two_level (ln_labels g) (ln_hidden g) nv (lx_hidden x) h' -> node_total g x nv w h' + visible_loss g hy h' <= node_total g x nv w h + visible_loss g hy h.
Proof.
  intros [HC [_ HCR]] H0 Hn. destruct HSM as [B [B' [B0 [HB [HB' S]]]]]. pose proof (states_pos g x nv hy H0 Hn) as HS.
  exact (ln_laug_best g x nv HX w HW Hn HS B B' (fun i s Hi Hs HL => HB i s Hi Hs (legal_iff _ _ _ _ HL)) HB' B0 solve HE hy R HC H0 HR HCR S).
Qed.
End LNT.
Lemma ln_feat g x nv w h : node_instance g x nv -> length w = ln_size g -> two_level (ln_labels g) (ln_hidden g) nv (lx_hidden x) h ->
  forall nvf, dot w (t_feat (ln_task g nvf) x h) = node_total g x nv w h.
Proof.
  intros HX HW HH nvf. cbn [t_feat ln_task]. destruct (ln_joint_discrete g x nv HX w h HW (two_level_labelling _ _ _ _ _ HH)) as [psi [E [_ D]]]. rewrite E. exact D.
Qed.
Lemma ln_implements g solve nvf x h : node_instance g x (nvf x) -> length (ln_cw g) = ln_labels g ->
  two_level (ln_labels g) (ln_hidden g) (nvf x) (lx_hidden x) h ->
  implements (ln_smodel solve g) (ln_task g nvf) (ln_size g) x h.
Proof.
  intros HX HC HH. split; [exact HH|]. split; [apply hamming_refl|]. intros h' H'. cbn [t_label t_feat t_loss ln_task] in *.
  destruct (ln_joint_discrete g x (nvf x) HX (vzero (ln_size g)) h' ltac:(apply repeat_length) (two_level_labelling _ _ _ _ _ H')) as [psi [E [LP _]]].
  cbn [ln_smodel sm_rescale sm_joint sm_tuple sm_loss]. rewrite E. split; [exact LP|]. split; [reflexivity|]. exact (ln_loss_value g HC _ _ h h' HH H').
Qed.
Lemma completed_two_level g nv x y h : labelling nv (ln_labels g) y -> completes (ln_labels g) (ln_hidden g) (lx_hidden x) y h ->
  two_level (ln_labels g) (ln_hidden g) nv (lx_hidden x) h.
Proof. intros H1 H2. exists y. auto. Qed.
Lemma completed_loss g nv nh y h z : labelling nv (ln_labels g) y -> completes (ln_labels g) (ln_hidden g) nh y h ->
  visible_loss g h z = hamming nv (get1 (ln_cw g)) (lab y) (lab z).
Proof.
  intros HY HH. rewrite (visible_loss_eq g nv nh) by (exists y; auto). unfold ln_label_from_latent. rewrite (completes_label _ _ _ _ _ (proj2 HY) HH). reflexivity.
Qed.
Lemma ln_latent_implements g solve cluster nvf x y : node_instance g x (nvf x) -> length (ln_cw g) = ln_labels g ->
  labelling (nvf x) (ln_labels g) y -> (0 < ln_hidden g)%nat \/ lx_hidden x = 0%nat ->
  latent_implements (ln_lmodel solve cluster g) (ln_task g nvf) (ln_E g) (ln_size g) x y.
Proof.
  intros HX HC HY HK. split; [exact (two_level_exists _ _ _ _ _ HY HK)|]. split.
  - intros h Hh. apply ln_implements; [exact HX|exact HC|]. exists y. auto.
  - intros h h' z Hh H' _. cbn [t_loss ln_task]. unfold ln_E in *. rewrite !(completed_loss g (nvf x) (lx_hidden x) y) by assumption. reflexivity.
Qed.
Lemma ln_latent_exact g solve cluster nvf x y w R : node_instance g x (nvf x) -> length w = ln_size g -> weights_within g R ->
  exact_solver_on solve (nvf x + lx_hidden x) (lx_edges x) -> (0 < nvf x + lx_hidden x)%nat ->
  labelling (nvf x) (ln_labels g) y -> (0 < ln_hidden g)%nat \/ lx_hidden x = 0%nat -> node_small g x (nvf x) w R ->
  latent_exact (ln_lmodel solve cluster g) (ln_task g nvf) (ln_E g) (ln_size g) w (x, y) /\
  exact_inference (ln_smodel solve g) (ln_task g nvf) w x /\
  right_loss (ln_lmodel solve cluster g) (ln_task g nvf) (ln_E g) (x, y).
Proof.
  intros HX HW HC HE Hn HY HK SM. assert (R0 : 0 <= R) by apply HC. assert (HCL : length (ln_cw g) = ln_labels g) by apply HC. split; [split; [|split]|split].
  - apply ln_latent_implements; assumption.
  - destruct (ln_completion_best g x (nvf x) w R solve HX HW HE R0 SM y Hn HY HK) as [h [E1 [E2 E3]]]. exists h. split; [exact E1|]. split; [exact E2|].
    intros h' H'. cbn [fst snd] in *. unfold ln_E in *. rewrite !(ln_feat g x (nvf x)) by first [assumption|exists y; auto]. apply E3, H'.
  - intros h Hh. cbn [fst snd] in *. assert (HT : two_level (ln_labels g) (ln_hidden g) (nvf x) (lx_hidden x) h) by (exists y; auto).
    destruct (ln_augmented_best g x (nvf x) w R solve HX HW HE R0 SM h HC HT Hn) as [h' [E1 [E2 E3]]]. exists h'. split; [exact E1|]. split; [exact E2|].
    intros z Hz. cbn [t_label ln_task] in Hz. rewrite !(ln_feat g x (nvf x)) by assumption. apply E3, Hz.
  - destruct (two_level_exists _ _ _ _ _ HY HK) as [h0 H0].
    destruct (ln_prediction_best g x (nvf x) w R solve HX HW HE R0 SM h0 ltac:(exists y; auto) Hn) as [h' [E1 [E2 E3]]]. exists h'. split; [exact E1|]. split; [exact E2|].
    intros z Hz. cbn [t_label ln_task] in Hz. rewrite !(ln_feat g x (nvf x)) by assumption. apply E3, Hz.
  - intros h z Hh Hz. cbn [fst snd t_label t_loss ln_task ln_lmodel lm_s ln_smodel sm_tuple sm_loss] in *.
    rewrite (ln_loss_observed g HCL _ _ y z HY Hz). unfold ln_E in Hh. rewrite (completed_loss g (nvf x) (lx_hidden x) y) by assumption. reflexivity.
Qed.

(** ** EdgeFeatureLatentNodeCRF *)
Lemma el_feat g x nv w h : edge_instance g x nv -> edge_declared g -> lx_edges (xl_node x) <> [] -> length w = el_size g -> edge_weights_ok g w ->
  two_level (ln_labels (el_node g)) (ln_hidden (el_node g)) nv (lx_hidden (xl_node x)) h ->
  forall nvf, dot w (t_feat (el_task g nvf) x h) = edge_total g x nv w h.
Proof.
  intros HX HD HNE HW HO HH nvf. cbn [t_feat el_task]. apply two_level_labelling in HH.
  destruct (el_joint_discrete g x nv HX w h HD HW HNE HH) as [psi [E [_ D]]]. rewrite E. cbn [ok_or]. rewrite D. apply effective_total_eq; assumption.
Qed.
Lemma el_implements g solve nvf x h : edge_instance g x (nvf x) -> edge_declared g -> lx_edges (xl_node x) <> [] -> length (ln_cw (el_node g)) = ln_labels (el_node g) ->
  two_level (ln_labels (el_node g)) (ln_hidden (el_node g)) (nvf x) (lx_hidden (xl_node x)) h ->
  implements (el_smodel solve g) (el_task g nvf) (el_size g) x h.
Proof.
  intros HX HD HNE HC HH. split; [exact HH|]. split; [apply hamming_refl|]. intros h' H'. cbn [t_label t_feat t_loss el_task] in *.
  destruct (el_joint_discrete g x (nvf x) HX (vzero (el_size g)) h' HD ltac:(apply repeat_length) HNE (two_level_labelling _ _ _ _ _ H')) as [psi [E [LP _]]].
  cbn [el_smodel sm_rescale sm_joint sm_tuple sm_loss]. rewrite E. split; [exact LP|]. split; [reflexivity|]. exact (ln_loss_value (el_node g) HC _ _ h h' HH H').
Qed.
Lemma el_latent_exact g solve cluster nvf x y w R : edge_instance g x (nvf x) -> edge_declared g -> lx_edges (xl_node x) <> [] -> (0 < el_edge_features g)%nat ->
  length w = el_size g -> edge_weights_ok g w -> weights_within (el_node g) R ->
  exact_on_tables solve (nvf x + lx_hidden (xl_node x)) (lx_edges (xl_node x)) -> (0 < nvf x + lx_hidden (xl_node x))%nat ->
  labelling (nvf x) (ln_labels (el_node g)) y -> (0 < ln_hidden (el_node g))%nat \/ lx_hidden (xl_node x) = 0%nat -> edge_small g x (nvf x) w R ->
  latent_exact (el_lmodel solve cluster g) (el_task g nvf) (el_E g) (el_size g) w (x, y) /\
  exact_inference (el_smodel solve g) (el_task g nvf) w x /\
  right_loss (el_lmodel solve cluster g) (el_task g nvf) (el_E g) (x, y).
Proof.
  intros HX HD HNE HF HW HO HC HE Hn HY HK SM. assert (R0 : 0 <= R) by apply HC. assert (HCL : length (ln_cw (el_node g)) = ln_labels (el_node g)) by apply HC.
  destruct SM as [B [B' [B0 [HB [HB' S]]]]]. destruct (two_level_exists _ _ _ _ _ HY HK) as [h0 H0].
  assert (HS : (0 < ln_states (el_node g))%nat) by (apply (states_pos (el_node g) (xl_node x) (nvf x) h0); [exists y; auto|exact Hn]).
  pose proof (fun i s Hi Hs HL => HB i s Hi Hs (legal_iff _ _ _ _ HL)) as HB1.
  assert (S0 : ofN (nvf x + lx_hidden (xl_node x)) * (B + B) + ofN (length (lx_edges (xl_node x))) * (B' + B') < ofN 100).
  { destruct (small_zero (ofN (nvf x + lx_hidden (xl_node x))) R B R0 (ofN_nonneg _)) as [Q1 Q2]. rewrite Q1 in S.
    set (p := ofN (nvf x + lx_hidden (xl_node x)) * (B + B)) in *. set (q := ofN (nvf x + lx_hidden (xl_node x)) * (R + R)) in *. set (r := ofN (length (lx_edges (xl_node x))) * (B' + B')) in *.
    clearbody p q r. generalize dependent (ofN 100). intros. qclra. }
  split; [split; [split; [|split]|split]|split].
  - exists h0. exact H0.
  - intros h Hh. apply el_implements; try assumption. exists y. auto.
  - intros h h' z Hh H' _. cbn [t_loss el_task]. unfold el_E in *. rewrite !(completed_loss (el_node g) (nvf x) (lx_hidden (xl_node x)) y) by assumption. reflexivity.
  - destruct (el_latent_best g x (nvf x) HX w HW Hn HS HF B B' HB1 HB' B0 solve HE y h0 HY H0 S0) as [h [E1 [E2 E3]]]. exists h. split; [exact E1|]. split; [exact E2|].
    intros h' H'. cbn [fst snd] in *. unfold el_E in *. rewrite !(el_feat g x (nvf x)) by first [assumption|exists y; auto]. apply E3, H'.
  - intros h Hh. cbn [fst snd] in *. assert (HT : two_level (ln_labels (el_node g)) (ln_hidden (el_node g)) (nvf x) (lx_hidden (xl_node x)) h) by (exists y; auto).
    destruct HC as [_ [_ HCR]].
    destruct (el_laug_best g x (nvf x) HX w HW Hn HS HF B B' HB1 HB' B0 solve HE h R HCL HT R0 HCR S) as [h' [E1 [E2 E3]]]. exists h'. split; [exact E1|]. split; [exact E2|].
    intros z Hz. cbn [t_label el_task] in Hz. rewrite !(el_feat g x (nvf x)) by assumption. apply E3, Hz.
  - destruct (el_inference_best g x (nvf x) HX w HW Hn HS HF B B' HB1 HB' B0 solve HE h0 ltac:(exists y; auto) S0) as [h' [E1 [E2 E3]]]. exists h'. split; [exact E1|]. split; [exact E2|].
    intros z Hz. cbn [t_label el_task] in Hz. rewrite !(el_feat g x (nvf x)) by assumption. apply E3, Hz.
  - intros h z Hh Hz. cbn [fst snd t_label t_loss el_task el_lmodel lm_s el_smodel sm_tuple sm_loss] in *.
    rewrite (ln_loss_observed (el_node g) HCL _ _ y z HY Hz). unfold el_E in Hh. rewrite (completed_loss (el_node g) (nvf x) (lx_hidden (xl_node x)) y) by assumption. reflexivity.
Qed.
(** failures *)
Lemma el_no_edge_features g x w solve : el_edge_features g = 0%nat ->
  (exists e, el_pairwise g x w = Err e) /\ (forall h, el_inference solve g x w <> Ok h) /\
  (forall y h, el_latent solve g x y w <> Ok h).
Proof.
  intros HD. assert (A : exists e, el_pairwise g x w = Err e).
  { unfold el_pairwise. destruct (check_size_w (el_size g) w); [|eexists; reflexivity]. cbn [bind]. destruct (el_check_x g x); [|eexists; reflexivity]. cbn [bind]. rewrite HD. eexists. reflexivity. }
  split; [exact A|]. destruct A as [e A]. split.
  - intros h H. unfold el_inference in H. apply bind_ok in H. destruct H as [? [_ H]]. apply bind_ok in H. destruct H as [? [_ H]]. rewrite A in H. discriminate H.
  - intros y h H. unfold el_latent in H. apply bind_ok in H. destruct H as [? [_ H]]. apply bind_ok in H. destruct H as [? [_ H]]. rewrite A in H. discriminate H.
Qed.
Lemma el_no_edges g x nv h : edge_instance g x nv -> lx_edges (xl_node x) = [] -> labelling (nv + lx_hidden (xl_node x)) (ln_states (el_node g)) h ->
  el_joint_feature g x (ELDiscrete h) = Err ValueError.
Proof.
  intros HX HN HH. unfold el_joint_feature. rewrite (el_check_ok g x nv HX). cbn [bind]. rewrite one_hot_ok by apply HH. cbn [bind]. rewrite HN. reflexivity.
Qed.

(** ** initial completions *)
Lemma features_ok L nf x y F : hidden_features L nf x y = Ok F ->
  length F = (if (lx_hidden x =? 0)%nat then length y else lx_hidden x) /\ Forall (fun l => (l < L)%nat) y /\ (0 < length y)%nat /\
  (length y + if nf then lx_hidden x else 0)%nat = mrows (lx_features x) /\ lx_edges x <> [] /\
  (fold_right Nat.max O (map (fun p => Nat.max (fst p) (snd p)) (lx_edges x)) + 1 = lx_hidden x + length y)%nat.
Proof.
  unfold hidden_features. intros E. apply bind_ok in E. destruct E as [[] [E1 E]]. apply bind_ok in E. destruct E as [[] [E2 E]]. apply bind_ok in E. destruct E as [[] [E3 E]].
  apply bind_ok in E. destruct E as [[] [E4 E]]. apply bind_ok in E. destruct E as [oh [E5 E]]. apply bind_ok in E. destruct E as [[] [E6 E]]. injection E as <-.
  apply ensure_ok in E1, E2, E3, E4, E6. apply Nat.eqb_eq in E3, E4. assert (HY : Forall (fun l => (l < L)%nat) y).
  { unfold one_hot in E5. destruct (forallb _ y) eqn:E7 in E5; [|discriminate E5]. apply forallb_lt_Forall. exact E7. }
  set (nv := if nf then (mrows (lx_features x) - lx_hidden x)%nat else mrows (lx_features x)) in *.
  rewrite map_length, seq_length, E4. split; [reflexivity|]. split; [exact HY|]. split; [destruct nv; [discriminate E6|lia]|].
  split; [destruct nf; cbn [negb orb] in *; unfold nv; [apply Nat.leb_le in E1|]; lia|].
  split; [intros N; rewrite N in E2; discriminate E2|exact E3].
Qed.
Lemma visible_sum e nv y v l : length y = nv -> sumn nv (fun j => count_edges e v j * ind (l =? nth j y O)%nat) =
  ofN (length (filter (fun p => (fst p =? v) && (snd p <? nv) && (lab y (snd p) =? l))%nat e)).
Proof.
  intros HL. induction e as [|[a b] e IH]; [apply sumn_zero; intros j _; unfold count_edges; cbn [filter length]; rewrite ofN_0; ring|].
  transitivity (sumn nv (fun j => ind (j =? b)%nat * (ind (a =? v)%nat * ind (l =? nth j y O)%nat)) + sumn nv (fun j => count_edges e v j * ind (l =? nth j y O)%nat)).
  - rewrite <- sumn_plus. apply sumn_ext. intros j _. unfold count_edges. cbn [filter fst snd]. rewrite (Nat.eqb_sym j b).
    destruct (a =? v)%nat, (b =? j)%nat; cbn [andb length ind]; rewrite ?ofN_S; ring.
  - rewrite IH. cbn [filter fst snd]. destruct (Nat.ltb_spec b nv).
    + rewrite sumn_pick by assumption. rewrite (Nat.eqb_sym l (nth b y O)). unfold lab at 2.
      destruct (a =? v)%nat, (nth b y O =? l)%nat; cbn [andb length ind]; rewrite ?ofN_S; ring.
    + rewrite sumn_zero; [rewrite andb_false_r; cbn [andb]; ring|]. intros j Hj. destruct (Nat.eqb_spec j b); [lia|]. cbn [ind]. ring.
Qed.
Lemma visible_joined_sum e nv y v l : length y = nv ->
  sumn nv (fun j => (count_edges e v j + count_edges e j v) * ind (l =? nth j y O)%nat) = ofN (visible_joined e nv y v l).
Proof.
  intros HL. unfold visible_joined. rewrite ofN_plus, <- (visible_sum e nv y v l HL).
  rewrite <- (filter_flip e (fun a b => (a =? v) && (b <? nv) && (lab y b =? l))%nat).
  rewrite <- (visible_sum (map (fun p => (snd p, fst p)) e) nv y v l HL).
  rewrite <- sumn_plus. apply sumn_ext. intros j _. rewrite <- count_flip. ring.
Qed.
Lemma features_shares L nf x y F i : hidden_features L nf x y = Ok F -> (i < lx_hidden x)%nat ->
  nth i F [] = tab1 L (fun l => ofN (visible_joined (lx_edges x) (length y) y (length y + i) l) /
    Qcmax (sumn L (fun l => ofN (visible_joined (lx_edges x) (length y) y (length y + i) l))) 1).
Proof.
  intros E Hi. destruct (features_ok _ _ _ _ _ E) as [_ [HY [HP [HN _]]]]. unfold hidden_features in E. apply bind_ok in E. destruct E as [[] [E1 E]]. apply bind_ok in E. destruct E as [[] [E2 E]]. apply bind_ok in E. destruct E as [[] [E3 E]].
  apply bind_ok in E. destruct E as [[] [E4 E]]. apply ensure_ok in E4. apply Nat.eqb_eq in E4. rewrite <- E4 in E. rewrite one_hot_ok in E by exact HY. cbn [bind] in E. apply bind_ok in E. destruct E as [[] [E6 E]].
  assert (Z : (lx_hidden x =? 0)%nat = false) by (apply Nat.eqb_neq; lia). rewrite Z in E. injection E as <-.
  match goal with |- nth i (map ?q _) [] = _ => set (fn := q) end. rewrite (nth_map_lt fn _ i [] O) by (rewrite seq_length; exact Hi). rewrite seq_nth by exact Hi. unfold fn. cbn [plus].
  assert (T : tab1 L (fun l => sumn (length y) (fun j => (count_edges (lx_edges x) (length y + i) j + count_edges (lx_edges x) j (length y + i)) * mget (mtab (length y) L (fun i0 s => ind (s =? nth i0 y 0)%nat)) j l))
            = tab1 L (fun l => ofN (visible_joined (lx_edges x) (length y) y (length y + i) l))).
  { unfold tab1. apply map_ext_in. intros l Hl. apply in_seq in Hl. rewrite <- (visible_joined_sum (lx_edges x) (length y) y (length y + i) l eq_refl). apply sumn_ext. intros j Hj. rewrite mget_mtab by lia. reflexivity. }
  rewrite T. rewrite lsum_tab1. unfold tab1, vscale. rewrite map_map. apply map_ext. intros l. unfold Qcdiv. ring.
Qed.
(** n_hidden = 0: graph[-0:] is all of graph *)
Lemma features_shares0 L nf x y F i : hidden_features L nf x y = Ok F -> lx_hidden x = O ->
  length F = length y /\ ((i < length y)%nat ->
  nth i F [] = tab1 L (fun l => ofN (visible_joined (lx_edges x) (length y) y i l) /
    Qcmax (sumn L (fun l => ofN (visible_joined (lx_edges x) (length y) y i l))) 1)).
Proof.
  intros E HZ. destruct (features_ok _ _ _ _ _ E) as [_ [HY [HP [HN _]]]]. unfold hidden_features in E. apply bind_ok in E. destruct E as [[] [E1 E]]. apply bind_ok in E. destruct E as [[] [E2 E]]. apply bind_ok in E. destruct E as [[] [E3 E]].
  apply bind_ok in E. destruct E as [[] [E4 E]]. apply ensure_ok in E4. apply Nat.eqb_eq in E4. rewrite <- E4 in E. rewrite one_hot_ok in E by exact HY. cbn [bind] in E. apply bind_ok in E. destruct E as [[] [E6 E]].
  assert (Z : (lx_hidden x =? 0)%nat = true) by (apply Nat.eqb_eq; lia). rewrite Z in E. injection E as <-. split; [rewrite map_length, seq_length; reflexivity|]. intro Hi.
  match goal with |- nth i (map ?q _) [] = _ => set (fn := q) end. rewrite (nth_map_lt fn _ i [] O) by (rewrite seq_length; exact Hi). rewrite seq_nth by exact Hi. unfold fn. cbn [plus].
  assert (T : tab1 L (fun l => sumn (length y) (fun j => (count_edges (lx_edges x) i j + count_edges (lx_edges x) j i) * mget (mtab (length y) L (fun i0 s => ind (s =? nth i0 y 0)%nat)) j l))
            = tab1 L (fun l => ofN (visible_joined (lx_edges x) (length y) y i l))).
  { unfold tab1. apply map_ext_in. intros l Hl. apply in_seq in Hl. rewrite <- (visible_joined_sum (lx_edges x) (length y) y i l eq_refl). apply sumn_ext. intros j Hj. rewrite mget_mtab by lia. reflexivity. }
  rewrite T. rewrite lsum_tab1. unfold tab1, vscale. rewrite map_map. apply map_ext. intros l. unfold Qcdiv. ring.
Qed.
Lemma kmeans_completes cluster g S H : ln_clusters cluster -> ln_init_latent cluster g S = Ok H ->
  Forall2 (fun s h => Forall (fun l => (l < ln_labels g)%nat) (snd s) /\
    ((0 < lx_hidden (fst s))%nat -> completes (ln_labels g) (ln_hidden g) (lx_hidden (fst s)) (snd s) h) /\
    (lx_hidden (fst s) = 0%nat -> exists z, h = snd s ++ z /\ length z = length (snd s) /\ (0 < length z)%nat)) S H.
Proof.
  intros HC E. unfold ln_init_latent, ln_kmeans_init in E. apply bind_ok in E. destruct E as [F [E1 E]]. apply bind_ok in E. destruct E as [[] [_ E]].
  apply bind_ok in E. destruct E as [km [E2 E]]. injection E as <-. pose proof (HC _ _ _ E2) as HK. clear E2.
  revert F E1. induction S as [|s S IH]; intros F E1; cbn [mapM] in E1.
  - injection E1 as <-. constructor.
  - apply bind_ok in E1. destruct E1 as [f [E0 E1]]. apply bind_ok in E1. destruct E1 as [F0 [E1 E3]]. injection E3 as <-. cbn [combine map fst snd]. constructor; [|apply IH, E1].
    destruct (features_ok _ _ _ _ _ E0) as [A1 [A2 [A3 _]]]. split; [exact A2|]. split; intros Hh.
    + assert (Z : (lx_hidden (fst s) =? 0)%nat = false) by (apply Nat.eqb_neq; lia). rewrite Z in A1.
      eexists. split; [reflexivity|]. split; [rewrite map_length; exact A1|]. apply Forall_map, Forall_forall. intros r _. specialize (HK r). lia.
    + rewrite Hh in A1. cbn [Nat.eqb] in A1. eexists. split; [reflexivity|]. rewrite map_length. split; [exact A1|lia].
Qed.
Lemma fold_max_iff (e : list (nat * nat)) n : (0 < n)%nat -> graph_edges n e ->
  (fold_right Nat.max O (map (fun p => Nat.max (fst p) (snd p)) e) + 1 = n)%nat <-> (exists p, In p e /\ (fst p = n - 1 \/ snd p = n - 1)%nat) \/ (n = 1%nat /\ e = []).
Proof.
  intros Hn HE. induction e as [|p e IH].
  - cbn [map fold_right]. split; [intros H; right; split; [lia|reflexivity]|intros [[p [[] _]]|[H _]]; lia].
  - apply Forall_cons_iff in HE. destruct HE as [[P1 P2] HE]. specialize (IH HE). cbn [map fold_right].
    assert (LE : (fold_right Nat.max O (map (fun p => Nat.max (fst p) (snd p)) e) + 1 <= n)%nat).
    { clear IH. induction e as [|q e IHe]; [cbn; lia|]. apply Forall_cons_iff in HE. destruct HE as [[Q1 Q2] HE]. specialize (IHe HE). cbn [map fold_right]. lia. }
    set (M := fold_right Nat.max O (map (fun p => Nat.max (fst p) (snd p)) e)) in *. split.
    + intros H. left. destruct (Nat.eq_dec (Nat.max (fst p) (snd p) + 1) n) as [Q|Q]; [exists p; split; [left; reflexivity|lia]|].
      assert (QM : (M + 1 = n)%nat) by lia. apply IH in QM. destruct QM as [[q [Q1 Q2]]|[Q1 Q2]]; [exists q; split; [right; exact Q1|exact Q2]|]. exists p. split; [left; reflexivity|lia].
    + intros [[q [[<-|Q1] Q2]]|[_ Q]]; [lia| |discriminate Q]. assert (QM : (M + 1 = n)%nat) by (apply IH; left; exists q; auto). lia.
Qed.
Lemma features_total L g x y : node_instance g x (length y) -> Forall (fun l => (l < L)%nat) y -> (0 < length y)%nat ->
  (exists p, In p (lx_edges x) /\ (fst p = length y + lx_hidden x - 1 \/ snd p = length y + lx_hidden x - 1)%nat) <->
  exists F, hidden_features L (ln_node_features g) x y = Ok F.
Proof.
  intros HX HY HP. pose proof (fold_max_iff (lx_edges x) (length y + lx_hidden x) ltac:(lia) (ni_edges _ _ _ HX)) as FM. split.
  - intros HL. assert (M : (fold_right Nat.max O (map (fun p => Nat.max (fst p) (snd p)) (lx_edges x)) + 1 = length y + lx_hidden x)%nat) by (apply FM; left; exact HL).
    unfold hidden_features. pose proof (ni_rows _ _ _ HX) as RW. rewrite RW.
    replace (negb (ln_node_features g) || (lx_hidden x <=? length y + (if ln_node_features g then lx_hidden x else 0))%nat)%bool with true.
    2:{ symmetry. destruct (ln_node_features g); cbn [negb orb]; [|reflexivity]. apply Nat.leb_le. lia. }
    cbn [ensure bind]. rewrite ensure_true by (destruct (lx_edges x); [destruct HL as [p [[] _]]|reflexivity]). cbn [bind].
    replace (if ln_node_features g then (length y + (if ln_node_features g then lx_hidden x else 0) - lx_hidden x)%nat else (length y + (if ln_node_features g then lx_hidden x else 0))%nat) with (length y) by (destruct (ln_node_features g); lia).
    rewrite M, (Nat.add_comm (length y)), !Nat.eqb_refl. cbn [ensure bind]. rewrite one_hot_ok by exact HY. cbn [bind]. rewrite ensure_true by (destruct (length y); [lia|reflexivity]). eexists. reflexivity.
  - intros [F E]. destruct (features_ok _ _ _ _ _ E) as [_ [_ [_ [_ [NE M]]]]]. destruct (proj1 FM ltac:(lia)) as [Q|[_ Q]]; [exact Q|contradiction].
Qed.
(** initial completions are computed exactly when every last node is on an edge *)
Lemma kmeans_succeeds cluster g S : S <> [] -> (forall k rows, exists km, cluster k rows = Ok km) ->
  Forall (fun s => node_instance g (fst s) (length (snd s)) /\ Forall (fun l => (l < ln_labels g)%nat) (snd s) /\ (0 < length (snd s))%nat) S ->
  (exists H, ln_init_latent cluster g S = Ok H) <->
  Forall (fun s => exists p, In p (lx_edges (fst s)) /\ (fst p = length (snd s) + lx_hidden (fst s) - 1 \/ snd p = length (snd s) + lx_hidden (fst s) - 1)%nat) S.
Proof.
  intros HN HC HS. split.
  - intros [H E]. unfold ln_init_latent, ln_kmeans_init in E. apply bind_ok in E. destruct E as [F [E1 _]]. clear HN H.
    revert F E1. induction HS as [|s S [I1 [I2 I3]] HS IH]; intros F E1; constructor; cbn [mapM] in E1; apply bind_ok in E1; destruct E1 as [f [E0 E1]].
    + apply (features_total (ln_labels g) g); try assumption. eexists; exact E0.
    + apply bind_ok in E1. destruct E1 as [F0 [E1 _]]. apply (IH F0 E1).
  - intros HL. unfold ln_init_latent, ln_kmeans_init.
    assert (A : exists F, mapM (fun s : ln_x * list nat => hidden_features (ln_labels g) (ln_node_features g) (fst s) (snd s)) S = Ok F).
    { clear HN. induction HS as [|s S [I1 [I2 I3]] HS IH]; [eexists; reflexivity|]. apply Forall_cons_iff in HL. destruct HL as [L1 L2]. destruct (IH L2) as [F EF].
      destruct (proj1 (features_total (ln_labels g) g _ _ I1 I2 I3) L1) as [f Ef]. cbn [mapM]. rewrite Ef. cbn [bind]. rewrite EF. eexists. reflexivity. }
    destruct A as [F EF]. rewrite EF. cbn [bind]. rewrite ensure_true by (destruct S; [contradiction|reflexivity]). cbn [bind].
    destruct (HC (ln_hidden g) (concat F)) as [km ->]. eexists. reflexivity.
Qed.

(** ** concrete models *)
(** one label, one hidden state: a visible node joined to a hidden node *)
Definition ex15_g : ln_crf := LNCRF 1 1 1 false [1].
Definition ex15_x : ln_x := LNX (Mat 1 1 [[1]]) [(0, 1)]%nat 1.
Definition ex15_w : list Qc := [0; ofN 1000; 0; 0].
Lemma ex15_instance : node_instance ex15_g ex15_x 1.
Proof. split; [split; [reflexivity|repeat constructor]|reflexivity|reflexivity|repeat constructor; cbn; lia]. Qed.
Lemma latent_label_wrong : exact_solver_on max_product_solver 2 (lx_edges ex15_x) /\ node_instance ex15_g ex15_x 1 /\
  length ex15_w = ln_size ex15_g /\ labelling 1 1 [0%nat] /\
  ln_latent max_product_solver ex15_g ex15_x [0%nat] ex15_w = Ok [0; 0]%nat /\ ln_label_from_latent ex15_g [0; 0]%nat = [0; 0]%nat.
Proof.
  split; [exact (max_product_exact_on_chain 2 ltac:(lia))|]. split; [exact ex15_instance|]. split; [reflexivity|]. split; [split; [reflexivity|repeat constructor]|].
  split; vm_compute; reflexivity.
Qed.
(** two labels, two hidden states: two visible nodes and a hidden one *)
Definition ex15_g2 : ln_crf := LNCRF 2 2 1 false [1; 1].
Definition ex15_x2 : ln_x := LNX (Mat 2 1 [[1]; [- (1)]]) [(0, 1); (1, 2)]%nat 1.
Definition ex15_w2 : list Qc := [1; 0; 0; 0; 0; 1; 0; 0; 0; 1; 0; 0].
Definition ex15_cluster : ln_clusterer := fun k _ => if (k =? 0)%nat then Err ValueError else Ok (fun _ => (k - 1)%nat).
Lemma ex15_clusters : ln_clusters ex15_cluster.
Proof. intros k rows km H r. unfold ex15_cluster in H. destruct (Nat.eqb_spec k 0); [discriminate H|]. injection H as <-. lia. Qed.
Lemma ex15_instance2 : node_instance ex15_g2 ex15_x2 2.
Proof. split; [split; [reflexivity|repeat constructor]|reflexivity|reflexivity|repeat constructor; cbn; lia]. Qed.
Lemma ex15_exact2 : exact_solver_on max_product_solver 3 (lx_edges ex15_x2). Proof. exact (max_product_exact_on_chain 3 ltac:(lia)). Qed.
Lemma ex15_weights2 : weights_within ex15_g2 1.
Proof. split; [reflexivity|]. split; [discriminate|]. intros l Hl. cbn in Hl. destruct l as [|[|l]]; [| |lia]; split; vm_compute; discriminate. Qed.
Lemma ex15_small2 : node_small ex15_g2 ex15_x2 2 ex15_w2 1.
Proof.
  exists 1, 1. split; [discriminate|]. split; [|split; [|vm_compute; reflexivity]].
  - intros i s Hi Hs _. cbn in Hi, Hs. destruct i as [|[|[|i]]]; [| | |lia]; (destruct s as [|[|[|[|s]]]]; [| | | |lia]; (split; vm_compute; discriminate)).
  - intros s t Hs Ht. cbn in Hs, Ht. destruct s as [|[|[|[|s]]]]; [| | | |lia]; (destruct t as [|[|[|[|t]]]]; [| | | |lia]; (split; vm_compute; discriminate)).
Qed.
(** the same with one symmetric edge feature *)
Definition ex15_e : el_crf := ELCRF ex15_g2 1 [0%nat] [].
Definition ex15_xe : el_x := ELX ex15_x2 (Mat 2 1 [[1]; [1 + 1]]).
Definition ex15_we : list Qc := [1; 0] ++ [0; 0; 1; 0;  0; 0; 0; 1;  1; 0; 0; 0;  0; 1; 0; 0].
Definition ex15_solve : solver := fun U p e => inference_max_product U p e 30 (Q2Qc (1 # 2)) 0.
Lemma ex15_solve_exact : exact_on_tables ex15_solve 3 (lx_edges ex15_x2).
Proof. change (lx_edges ex15_x2) with (chain_edges 3). intros U p k HU Hr Hc Hp Hk. unfold ex15_solve. apply max_product_chain; auto; lia. Qed.
Lemma ex15_edge_instance : edge_instance ex15_e ex15_xe 2.
Proof. split; [exact ex15_instance2|reflexivity|reflexivity]. Qed.
Lemma ex15_declared : edge_declared ex15_e.
Proof. split; [repeat constructor|]. split; [constructor|]. intros i _ []. Qed.
Lemma ex15_edge_weights : edge_weights_ok ex15_e ex15_we.
Proof.
  split; [|intros f s t []]. intros f s t [<-|[]] Hs Ht. cbn in Hs, Ht. destruct s as [|[|[|[|s]]]]; [| | | |lia]; (destruct t as [|[|[|[|t]]]]; [| | | |lia]; reflexivity).
Qed.
Lemma ex15_edge_small : edge_small ex15_e ex15_xe 2 ex15_we 1.
Proof.
  exists 1, (1 + 1). split; [discriminate|]. split; [|split; [|vm_compute; reflexivity]].
  - intros i s Hi Hs _. cbn in Hi, Hs. destruct i as [|[|[|i]]]; [| | |lia]; (destruct s as [|[|[|[|s]]]]; [| | | |lia]; (split; vm_compute; discriminate)).
  - intros e s t He Hs Ht. cbn in He, Hs, Ht. destruct e as [|[|e]]; [| |lia]; (destruct s as [|[|[|[|s]]]]; [| | | |lia]; (destruct t as [|[|[|[|t]]]]; [| | | |lia]; (split; vm_compute; discriminate))).
Qed.
(** without hidden nodes the initial completion is twice as long as the labels *)
Lemma no_hidden_wrong : exists H, ln_init_latent ex15_cluster ex15_g2 [(LNX (Mat 2 1 [[1]; [- (1)]]) [(0, 1)]%nat 0, [0; 1]%nat)] = Ok [H] /\
  length H = 4%nat /\ ~ completes 2 2 0 [0; 1]%nat H.
Proof.
  exists [0; 1; 3; 3]%nat. split; [vm_compute; reflexivity|]. split; [reflexivity|]. intros [z [E [L _]]]. destruct z; [discriminate E|discriminate L].
Qed.
(** losses and loss augmentation on two-level labellings *)
Lemma losses_all g nv nh h : length (ln_cw g) = ln_labels g -> two_level (ln_labels g) (ln_hidden g) nv nh h ->
  (forall h', two_level (ln_labels g) (ln_hidden g) nv nh h' ->
     ln_loss g h h' = Ok (hamming nv (get1 (ln_cw g)) (lab h) (lab h')) /\ visible_loss g h h' = hamming nv (get1 (ln_cw g)) (lab h) (lab h')) /\
  (forall m, (nv <= mrows m)%nat -> (ln_labels g <= mcols m)%nat ->
     ln_continuous_loss g h m = Ok (sumn nv (fun i => get1 (ln_cw g) (lab h i) * (1 - mget m i (lab h i))))) /\
  ln_max_loss g h = Ok (sumn nv (fun i => get1 (ln_cw g) (lab h i))).
Proof.
  intros HC HH. assert (LV : length (filter (fun s => s <? ln_labels g)%nat h) = nv) by apply (label_two_level g nv nh h HH).
  assert (V : forall h', visible_loss g h h' = hamming nv (get1 (ln_cw g)) (lab h) (lab h')) by (intros h'; unfold visible_loss; rewrite LV; reflexivity).
  split; [|split].
  - intros h' H'. split; [rewrite (ln_loss_value g HC nv nh h h' HH H'), V; reflexivity|apply V].
  - intros m. exact (ln_continuous_value g HC nv nh h m HH).
  - exact (ln_max_loss_value g HC nv nh h HH).
Qed.
Lemma augmented_two_level g nv nh h u : length (ln_cw g) = ln_labels g -> two_level (ln_labels g) (ln_hidden g) nv nh h ->
  mat_ok u -> mrows u = (nv + nh)%nat -> mcols u = ln_states g ->
  exists u', ln_augment g h (seq 0 (ln_states g)) u = Ok u' /\
  (forall i s, (i < nv + nh)%nat -> (s < ln_states g)%nat ->
     mget u' i s = mget u i s + if ((i <? nv) && negb (lab h i =? s))%nat then get1 (ln_cw g) (lab h i) else 0) /\
  forall edges P h', labelling (nv + nh) (ln_states g) h' ->
    score (nv + nh) edges (mget u') P (lab h') = score (nv + nh) edges (mget u) P (lab h') + hamming nv (get1 (ln_cw g)) (lab h) (lab h').
Proof.
  intros HC HH HU RU CU. destruct (label_two_level g nv nh h HH) as [Y1 Y2].
  destruct (ln_augment_all g h u) as [u' [E1 [O1 [R1 [C1 [V1 V2]]]]]]; [rewrite HC; apply Y1|exact HU|rewrite (proj1 Y1), RU; lia|exact CU|].
  assert (LB : forall i, (i < nv)%nat -> lab (ln_label_from_latent g h) i = lab h i).
  { intros i Hi. destruct Y2 as [z [Q _]]. rewrite Q at 2. unfold lab. rewrite app_nth1 by (rewrite (proj1 Y1); exact Hi). reflexivity. }
  exists u'. split; [exact E1|]. rewrite RU in *. rewrite (proj1 Y1) in *. split.
  - intros i s Hi Hs. rewrite V1 by assumption. destruct (Nat.ltb_spec i nv); [rewrite LB by assumption; reflexivity|reflexivity].
  - intros edges P h' H'. rewrite V2 by assumption. f_equal. unfold hamming. apply sumn_ext. intros i Hi. rewrite LB by exact Hi. reflexivity.
Qed.

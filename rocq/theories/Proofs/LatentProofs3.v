(** Loss augmentation of LatentGraphCRF; the model as a structured prediction task. *)
From Verif Require Import Model.LatentGraph Model.LatentLearner Model.Instances Spec.GraphSpec Spec.SolverSpec
  Proofs.Arrays Proofs.EnergyProofs Proofs.GraphCRFProofs Proofs.LossProofs Proofs.CRFProofs Proofs.InstanceProofs
  Proofs.LatentProofs Proofs.LatentProofs2 Spec.LatentSpec.

Lemma lab_map f h i : (i < length h)%nat -> lab (map f h) i = f (lab h i).
Proof. intros H. unfold lab. apply nth_map_lt. exact H. Qed.
Lemma get1_ones k i : (i < k)%nat -> get1 (repeat 1 k) i = 1.
Proof. revert i. induction k; intros i H; [lia|]. destruct i; [reflexivity|]. apply IHk. lia. Qed.

Section Laid.
Variable g : lg_crf.
Hypothesis HG : laid_out g.
Lemma owners_labelling n h : labelling n (lg_states g) h -> labelling n (lg_labels g) (map (owner (lg_counts g)) h).
Proof.
  intros [L F]. split; [rewrite map_length; exact L|]. apply Forall_map. apply Forall_impl with (2 := F). intros s Hs.
  destruct HG as [HL _]. rewrite <- HL. apply owner_lt. exact Hs.
Qed.
Lemma lg_loss_value n h h' : labelling n (lg_states g) h -> labelling n (lg_states g) h' -> lg_loss g h h' = Ok (label_distance (lg_counts g) h h').
Proof.
  intros H H'. unfold lg_loss. rewrite (label_ok g HG h) by apply H. cbn [bind]. rewrite (label_ok g HG h') by apply H'. cbn [bind].
  unfold lg_cw. rewrite (loss_weighted n (lg_labels g) _ _ _ (repeat_length _ _) (owners_labelling _ _ H)) by (rewrite map_length; apply H').
  f_equal. unfold label_distance. rewrite (proj1 H). unfold hamming. apply sumn_ext. intros i Hi.
  rewrite lab_map by (rewrite (proj1 H); exact Hi). rewrite lab_map by (rewrite (proj1 H'); exact Hi).
  destruct (owner (lg_counts g) (lab h i) =? owner (lg_counts g) (lab h' i))%nat; [reflexivity|]. apply get1_ones.
  destruct HG as [HL _]. rewrite <- HL. apply owner_lt. apply (labelling_lt n); assumption.
Qed.
Lemma lg_loss_bad h h' : (~ Forall (fun s => (s < lg_states g)%nat) h \/ ~ Forall (fun s => (s < lg_states g)%nat) h') -> lg_loss g h h' = Err IndexError.
Proof.
  intros [H|H]; unfold lg_loss.
  - rewrite (label_err g HG h) by exact H. reflexivity.
  - destruct (label_from_latent g h) as [y|e] eqn:E; cbn [bind].
    + rewrite (label_err g HG h') by exact H. reflexivity.
    + assert (N : ~ Forall (fun s => (s < lg_states g)%nat) h) by (intros F; rewrite (label_ok g HG h F) in E; discriminate E).
      rewrite (label_err g HG h) in E by exact N. congruence.
Qed.

(** the augmentation loop *)
Lemma augment_ok n h : labelling n (lg_states g) h -> forall ls u, NoDup ls -> Forall (fun l => (l < lg_states g)%nat) ls -> mat_ok u -> mrows u = n -> mcols u = lg_states g ->
  exists u', lg_augment g h ls u = Ok u' /\ mat_ok u' /\ mrows u' = n /\ mcols u' = lg_states g /\
  forall i s, (i < n)%nat -> (s < lg_states g)%nat ->
    mget u' i s = mget u i s + if (existsb (Nat.eqb s) ls && negb (owner (lg_counts g) (lab h i) =? owner (lg_counts g) s)%nat)%bool then 1 else 0.
Proof.
  intros HH. induction ls as [|l ls IH]; intros u ND FL OU RU CU; cbn [lg_augment].
  - exists u. repeat (split; [assumption || reflexivity|]). intros i s _ _. cbn [existsb andb]. ring.
  - inversion ND as [|? ? NI ND']; subst. inversion FL as [|? ? HL FL']; subst.
    unfold lg_augment_state. rewrite (label_ok g HG h) by apply HH. cbn [bind]. rewrite (map_index g HG l HL). cbn [bind].
    rewrite map_length, (proj1 HH), CU, Nat.eqb_refl. apply Nat.ltb_lt in HL. rewrite HL. apply Nat.ltb_lt in HL. cbn [andb ensure bind].
    match goal with |- context [mtab _ _ ?f] => set (u1 := mtab (mrows u) (lg_states g) f) end.
    destruct (IH u1 ND' FL' (mtab_ok _ _ _) eq_refl eq_refl) as [u' [E [O [R [C V]]]]].
    exists u'. repeat (split; [assumption|]). intros i s Hi Hs. rewrite V by assumption. unfold u1. rewrite mget_mtab by assumption. cbn [existsb].
    change (nth i (map (owner (lg_counts g)) h) 0%nat) with (lab (map (owner (lg_counts g)) h) i). rewrite lab_map by (rewrite (proj1 HH); exact Hi).
    destruct (Nat.eqb_spec s l) as [->|N]; cbn [andb orb].
    + assert (Q : existsb (Nat.eqb l) ls = false).
      { destruct (existsb (Nat.eqb l) ls) eqn:Q; [|reflexivity]. exfalso. apply existsb_exists in Q. destruct Q as [z [Z1 Z2]]. apply Nat.eqb_eq in Z2. subst z. exact (NI Z1). }
      rewrite Q. cbn [andb]. destruct (owner (lg_counts g) (lab h i) =? owner (lg_counts g) l)%nat; cbn [negb]; ring.
    + reflexivity.
Qed.
Lemma augment_all n h u : labelling n (lg_states g) h -> mat_ok u -> mrows u = n -> mcols u = lg_states g ->
  exists u', lg_augment g h (seq 0 (lg_states g)) u = Ok u' /\ mat_ok u' /\ mrows u' = n /\ mcols u' = lg_states g /\
  (forall i s, (i < n)%nat -> (s < lg_states g)%nat -> mget u' i s = mget u i s + if (owner (lg_counts g) (lab h i) =? owner (lg_counts g) s)%nat then 0 else 1) /\
  forall edges P h', labelling n (lg_states g) h' ->
    score n edges (mget u') P (lab h') = score n edges (mget u) P (lab h') + label_distance (lg_counts g) h h'.
Proof.
  intros HH OU RU CU. destruct (augment_ok n h HH (seq 0 (lg_states g)) u (seq_NoDup _ _)) as [u' [E [O [R [C V]]]]]; try assumption.
  { apply Forall_forall. intros l Hl. apply in_seq in Hl. lia. }
  assert (V' : forall i s, (i < n)%nat -> (s < lg_states g)%nat -> mget u' i s = mget u i s + if (owner (lg_counts g) (lab h i) =? owner (lg_counts g) s)%nat then 0 else 1).
  { intros i s Hi Hs. rewrite V by assumption. assert (Q : existsb (Nat.eqb s) (seq 0 (lg_states g)) = true).
    { apply existsb_exists. exists s. split; [apply in_seq; lia|apply Nat.eqb_refl]. }
    rewrite Q. cbn [andb]. destruct (owner (lg_counts g) (lab h i) =? owner (lg_counts g) s)%nat; reflexivity. }
  exists u'. repeat (split; [assumption|]). intros edges P h' H'. unfold score, label_distance, hamming. rewrite (proj1 HH).
  rewrite (sumn_ext n (fun i => mget u' i (lab h' i)) (fun i => mget u i (lab h' i) + if (owner (lg_counts g) (lab h i) =? owner (lg_counts g) (lab h' i))%nat then 0 else 1)).
  - rewrite sumn_plus. ring.
  - intros i Hi. apply V'; [exact Hi|]. apply (labelling_lt n); assumption.
Qed.

Lemma lg_feat_ok x h : valid_x (lg_graph g) x -> labelling (mrows (gx_features x)) (lg_states g) h ->
  g_joint_feature (lg_graph g) x (Discrete h) = Ok (t_feat (lg_task g) x h) /\ length (t_feat (lg_task g) x h) = g_size (lg_graph g).
Proof. exact (g_feat_ok (lg_graph g) [] x h). Qed.
Lemma lg_feat_score x w U P h : valid_x (lg_graph g) x -> length w = g_size (lg_graph g) -> g_potentials (lg_graph g) x w = Ok (U, P) ->
  labelling (mrows (gx_features x)) (lg_states g) h ->
  dot w (t_feat (lg_task g) x h) = score (mrows (gx_features x)) (gx_edges x) (mget U) (fun _ => mget P) (lab h).
Proof.
  intros HX HW EP Hh. destruct (g_potentials_ok _ x w HX HW) as [U' [P' [E [OU [RU [CU [OP [RP [CP [GU GP]]]]]]]]]].
  assert (U' = U /\ P' = P) as [-> ->] by (split; congruence).
  rewrite (g_score_potentials (lg_graph g) x w U P h HX Hh GU GP). exact (g_feat_score (lg_graph g) [] x h w HX HW Hh).
Qed.
Lemma label_distance_refl h : label_distance (lg_counts g) h h = 0.
Proof. apply hamming_refl. Qed.
Lemma lg_implements solve x h : valid_x (lg_graph g) x -> labelling (mrows (gx_features x)) (lg_states g) h ->
  implements (lg_smodel solve g) (lg_task g) (g_size (lg_graph g)) x h.
Proof.
  intros HX Hh. split; [exact Hh|]. split; [exact (label_distance_refl h)|]. intros h' H'. cbn [t_label lg_task] in H'.
  destruct (lg_feat_ok x h' HX H') as [E L]. split; [exact L|]. split; [exact E|].
  cbn [lg_smodel sm_tuple sm_loss]. apply (lg_loss_value (mrows (gx_features x))); assumption.
Qed.
Lemma lg_exact_laug solve x h w : exact_solver_on solve (mrows (gx_features x)) (gx_edges x) -> valid_x (lg_graph g) x -> length w = g_size (lg_graph g) ->
  (0 < lg_states g)%nat -> labelling (mrows (gx_features x)) (lg_states g) h -> exact_laug (lg_smodel solve g) (lg_task g) w x h.
Proof.
  intros HE HX HW HS Hh. destruct (g_potentials_ok _ x w HX HW) as [U [P [E [OU [RU [CU [OP [RP [CP _]]]]]]]]].
  destruct (augment_all _ h U Hh OU RU CU) as [U' [EA [O [R [C [_ V]]]]]].
  destruct (HE U' P (lg_states g)) as [hh [E1 [L1 L2]]]; try assumption.
  exists hh. split; [|split; [exact L1|]].
  - cbn [lg_smodel sm_laug]. unfold lg_loss_augmented_inference. rewrite E. cbn [bind fst snd]. rewrite EA. exact E1.
  - intros h' H'. cbn [t_label lg_task] in H'. rewrite (lg_feat_score x w U P h' HX HW E H'), (lg_feat_score x w U P hh HX HW E L1).
    cbn [t_loss lg_task]. rewrite <- (V _ _ _ H'), <- (V _ _ _ L1). apply L2. exact H'.
Qed.
Lemma lg_exact_inference solve x w : exact_solver_on solve (mrows (gx_features x)) (gx_edges x) -> valid_x (lg_graph g) x -> length w = g_size (lg_graph g) ->
  (0 < lg_states g)%nat -> exact_inference (lg_smodel solve g) (lg_task g) w x.
Proof. exact (g_exact_inference solve (lg_graph g) [] x w). Qed.
Lemma best_is_completion x w U P y h : valid_x (lg_graph g) x -> length w = g_size (lg_graph g) -> g_potentials (lg_graph g) x w = Ok (U, P) -> length y = mrows (gx_features x) ->
  best_explanation (lg_counts g) (mrows (gx_features x)) (gx_edges x) (mget U) (fun _ => mget P) y h <->
  best_completion (lg_task g) (fun _ y h => explains (lg_counts g) h y) w x y h.
Proof.
  intros HX HW EP HY. split; intros [H1 H2]; (split; [exact H1|]); intros h' H'; specialize (H2 h' H');
    pose proof (explains_labelling _ _ _ _ H1 HY) as L1; pose proof (explains_labelling _ _ _ _ H' HY) as L2.
  - rewrite (lg_feat_score x w U P h' HX HW EP L2), (lg_feat_score x w U P h HX HW EP L1). exact H2.
  - rewrite (lg_feat_score x w U P h' HX HW EP L2), (lg_feat_score x w U P h HX HW EP L1) in H2. exact H2.
Qed.

(** relaxed labellings *)
Lemma map_labels : forallb (fun l => (l <? lg_labels g)%nat) (lg_map g) = true.
Proof.
  apply forallb_forall. intros l Hl. destruct HG as [HL [H1 H2]]. apply In_nth with (d := O) in Hl. destruct Hl as [s [Hs <-]].
  rewrite H1 in Hs. rewrite H2 by exact Hs. apply Nat.ltb_lt. rewrite <- HL. apply owner_lt. exact Hs.
Qed.
Lemma lg_continuous_value n h m : labelling n (lg_states g) h -> mrows m = n -> mcols m = lg_states g ->
  lg_continuous_loss g h m = Ok (sumn n (fun i => 1 - sumn (lg_states g) (fun s => if (owner (lg_counts g) s =? owner (lg_counts g) (lab h i))%nat then mget m i s else 0))).
Proof.
  intros Hh R C. unfold lg_continuous_loss. rewrite map_labels, C, Nat.leb_refl. cbn [andb ensure bind]. rewrite (label_ok g HG h) by apply Hh. cbn [bind].
  pose proof (owners_labelling _ _ Hh) as HO. unfold lg_cw. rewrite (continuous_loss_weighted n (lg_labels g) _ _ _ (repeat_length _ _) HO) by assumption || reflexivity.
  f_equal. apply sumn_ext. intros i Hi. pose proof (labelling_lt _ _ _ i HO Hi) as LO. rewrite mget_mtab by (rewrite ?R; assumption).
  rewrite get1_ones by exact LO. rewrite lab_map by (rewrite (proj1 Hh); exact Hi). destruct HG as [_ [_ H2]].
  rewrite (sumn_ext (lg_states g) _ (fun s => if (owner (lg_counts g) s =? owner (lg_counts g) (lab h i))%nat then mget m i s else 0)); [ring|].
  intros s Hs. rewrite H2 by exact Hs. reflexivity.
Qed.
Lemma lg_continuous_discrete n h h' : labelling n (lg_states g) h -> labelling n (lg_states g) h' ->
  lg_continuous_loss g h (mtab n (lg_states g) (fun i s => ind (s =? lab h' i)%nat)) = lg_loss g h h'.
Proof.
  intros H H'. rewrite (lg_loss_value n h h' H H'). rewrite (lg_continuous_value n h _ H) by reflexivity. f_equal.
  unfold label_distance, hamming. rewrite (proj1 H). apply sumn_ext. intros i Hi. pose proof (labelling_lt _ _ _ i H' Hi) as L.
  rewrite (sumn_ext (lg_states g) _ (fun s => ind (s =? lab h' i)%nat * if (owner (lg_counts g) s =? owner (lg_counts g) (lab h i))%nat then 1 else 0)).
  - rewrite sumn_pick by exact L. rewrite (Nat.eqb_sym (owner (lg_counts g) (lab h i))).
    destruct (owner (lg_counts g) (lab h' i) =? owner (lg_counts g) (lab h i))%nat; ring.
  - intros s Hs. rewrite mget_mtab by assumption. destruct (owner (lg_counts g) s =? owner (lg_counts g) (lab h i))%nat; ring.
Qed.

(** ** the loss of an observed labelling *)
Lemma label_loss_value n y h : labelling n (lg_labels g) y -> (lg_labels g <= lg_states g)%nat -> labelling n (lg_states g) h ->
  lg_loss g y h = Ok (hamming n (fun _ => 1) (fun i => owner (lg_counts g) (lab y i)) (fun i => owner (lg_counts g) (lab h i))).
Proof.
  intros Hy HK Hh. rewrite (lg_loss_value n y h); [|split; [apply Hy|]|exact Hh].
  - unfold label_distance. rewrite (proj1 Hy). reflexivity.
  - apply Forall_impl with (2 := proj2 Hy). intros l Hl. cbv beta in *. lia.
Qed.
(** ... is the label loss for all answers iff the labels are mapped to themselves *)
Lemma label_loss_right n y : labelling n (lg_labels g) y -> Forall (fun c => (0 < c)%nat) (lg_counts g) -> (lg_labels g <= lg_states g)%nat ->
  (forall h, labelling n (lg_states g) h -> lg_loss g y h = Ok (hamming n (fun _ => 1) (lab y) (fun i => owner (lg_counts g) (lab h i)))) <->
  (forall i, (i < n)%nat -> owner (lg_counts g) (lab y i) = lab y i).
Proof.
  intros Hy HC HK. split.
  - intros H i Hi. destruct HG as [HL _].
    assert (X : explains (lg_counts g) (map (offset (lg_counts g)) y) y).
    { apply first_explains. apply Forall_impl with (2 := proj2 Hy). intros l Hl. rewrite HL. split; [exact Hl|]. rewrite Forall_forall in HC. apply HC, nth_In. rewrite HL. exact Hl. }
    assert (LX : labelling n (lg_states g) (map (offset (lg_counts g)) y)) by (apply (explains_labelling _ _ y); [exact X|apply Hy]).
    specialize (H _ LX). rewrite (label_loss_value n y _ Hy HK LX) in H. injection H as H.
    assert (Z : hamming n (fun _ => 1) (fun i => owner (lg_counts g) (lab y i)) (lab y) = 0).
    { transitivity (hamming n (fun _ => 1) (lab y) (lab y)); [|apply hamming_refl].
      assert (EQ : forall j, (j < n)%nat -> owner (lg_counts g) (lab (map (offset (lg_counts g)) y) j) = lab y j).
      { intros j Hj. apply block_owner. apply (explains_lab _ _ _ X). rewrite (proj1 Hy). exact Hj. }
      transitivity (hamming n (fun _ => 1) (fun i => owner (lg_counts g) (lab y i)) (fun i => owner (lg_counts g) (lab (map (offset (lg_counts g)) y) i))).
      - unfold hamming. apply sumn_ext. intros j Hj. rewrite EQ by exact Hj. reflexivity.
      - apply Qc_is_canon. rewrite H. assert (R : hamming n (fun _ => 1) (lab y) (fun i => owner (lg_counts g) (lab (map (offset (lg_counts g)) y) i)) = hamming n (fun _ => 1) (lab y) (lab y)).
        { unfold hamming. apply sumn_ext. intros j Hj. rewrite EQ by exact Hj. reflexivity. }
        rewrite R. reflexivity. }
    apply (hamming_zero n (fun _ => 1) (fun i => owner (lg_counts g) (lab y i)) (lab y)); [|exact Z|exact Hi]. intros j _. cbv beta. reflexivity.
  - intros H h Hh. rewrite (label_loss_value n y h Hy HK Hh). f_equal. unfold hamming. apply sumn_ext. intros i Hi. rewrite H by exact Hi. reflexivity.
Qed.
End Laid.
Lemma states_enough counts : Forall (fun c => (0 < c)%nat) counts -> (length counts <= list_sum counts)%nat.
Proof. intros H. induction H; cbn [length]; [cbn; lia|]. change (list_sum (x :: l)) with (x + list_sum l)%nat. lia. Qed.
(** k states for every label: state l belongs to label l / k *)
Lemma owner_repeat k : (0 < k)%nat -> forall nl s, (s < k * nl)%nat -> owner (repeat k nl) s = (s / k)%nat.
Proof.
  intros Hk. induction nl as [|nl IH]; intros s Hs; [lia|]. cbn [repeat owner]. destruct (Nat.ltb_spec s k) as [L|L].
  - rewrite Nat.div_small by exact L. reflexivity.
  - rewrite IH by lia. replace s with ((s - k) + 1 * k)%nat at 2 by lia. rewrite Nat.div_add by lia. lia.
Qed.
Lemma list_sum_repeat k n : list_sum (repeat k n) = (k * n)%nat.
Proof. induction n; [cbn; lia|]. cbn [repeat]. change (list_sum (k :: repeat k n)) with (k + list_sum (repeat k n))%nat. lia. Qed.
Lemma same_states_charge nl nf k g n y h : lg_setup nl nf (SameStates k) = Ok g -> (2 <= k)%nat -> labelling n nl y -> explains (lg_counts g) h y ->
  lg_loss g y h = Ok (sumn n (fun i => if (lab y i =? 0)%nat then 0 else 1)).
Proof.
  intros E Hk Hy HX. destruct (setup_laid_out _ _ _ _ E) as [HG [E1 [E2 E3]]].
  assert (HS : lg_states g = (k * nl)%nat) by (unfold lg_states; rewrite E3; apply list_sum_repeat).
  assert (LH : labelling n (lg_states g) h) by (apply (explains_labelling _ _ y); [exact HX|apply Hy]).
  rewrite (label_loss_value g HG n y h); [|rewrite E1; exact Hy|rewrite E1, HS; nia|exact LH].
  f_equal. unfold hamming. apply sumn_ext. intros i Hi. rewrite (block_owner _ _ _ (explains_lab _ _ _ HX i ltac:(rewrite (proj1 Hy); exact Hi))).
  pose proof (labelling_lt _ _ _ i Hy Hi) as L. rewrite E3, owner_repeat by (try lia; nia).
  destruct (Nat.eqb_spec (lab y i) 0) as [Z|Z].
  - rewrite Z, Nat.div_0_l by lia. reflexivity.
  - assert (lab y i / k < lab y i)%nat by (apply Nat.div_lt; lia). destruct (Nat.eqb_spec (lab y i / k) (lab y i)); [lia|reflexivity].
Qed.

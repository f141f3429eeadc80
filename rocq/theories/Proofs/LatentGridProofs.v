(** LatentGridCRF: a LatentGraphCRF on the grid graph.  Latent completion with one table per edge. *)
From Verif Require Import Model.LatentGrid Model.Instances Spec.GraphSpec Spec.SolverSpec Spec.EdgeSpec
  Proofs.Arrays Proofs.EnergyProofs Proofs.GraphCRFProofs Proofs.LossProofs Proofs.CRFProofs Proofs.MaxProdProofs Proofs.InstanceProofs
  Proofs.GridProofs Proofs.GridProofs2
  Proofs.LatentProofs Proofs.LatentProofs2 Proofs.LatentProofs3 Proofs.LatentProofs4 Spec.LatentSpec Spec.LatentGridSpec.

Lemma ltg_setup_inv nl nf p nb t : ltg_setup nl nf p nb = Ok t ->
  laid_out (tg_lg t) /\ lg_labels (tg_lg t) = nl /\ lg_features (tg_lg t) = nf /\ tg_nb t = nb.
Proof.
  unfold ltg_setup. intros E. apply bind_ok in E. destruct E as [g [E1 E]]. injection E as <-. cbn [tg_lg tg_nb].
  destruct (setup_laid_out _ _ _ _ E1) as [H [H1 [H2 _]]]. auto.
Qed.
Lemma ldg_setup_inv nl nf p nb d : ldg_setup nl nf p nb = Ok d ->
  exists g, laid_out g /\ lg_labels g = nl /\ lg_features g = nf /\ d = LDG g (if (nb =? 4)%nat then 2 else 4) 4.
Proof.
  unfold ldg_setup. intros E. apply bind_ok in E. destruct E as [g [E1 E]]. injection E as <-. exists g.
  destruct (setup_laid_out _ _ _ _ E1) as [H [H1 [H2 _]]]. auto.
Qed.

Section Grid.
Variables (t : ltg_crf) (x : grid_x) (es : list (nat * nat)).
Hypothesis HG : laid_out (tg_lg t).
Hypothesis HF : (0 < lg_features (tg_lg t))%nat.
Hypothesis HL : length (gr_data x) = (gr_h x * gr_w x * lg_features (tg_lg t))%nat.
Hypothesis HE : make_grid_edges (gr_h x) (gr_w x) (tg_nb t) = Ok es.
Definition pixels (F : nat) (x : grid_x) (es : list (nat * nat)) : graph_x :=
  GraphX (mtab (gr_h x * gr_w x) F (fun i f => get1 (gr_data x) (i * F + f))) es.
Let gx := pixels (lg_features (tg_lg t)) x es.
Lemma ltg_graph_ok : grid_graph (ltg_grid t) x = Ok gx.
Proof. exact (grid_graph_ok (ltg_grid t) x es HF HL HE). Qed.
Lemma ltg_valid : valid_x (lg_graph (tg_lg t)) gx.
Proof. split; [apply mtab_ok|reflexivity|apply (grid_edges_sound _ _ _ _ HE)]. Qed.
Lemma ltg_feat h : t_feat (ltg_task t) x h = t_feat (lg_task (tg_lg t)) gx h.
Proof. cbn [t_feat ltg_task lg_task]. unfold grid_joint_feature. rewrite ltg_graph_ok. reflexivity. Qed.
Lemma ltg_implements solve h : labelling (gr_h x * gr_w x) (lg_states (tg_lg t)) h ->
  implements (ltg_smodel solve t) (ltg_task t) (g_size (lg_graph (tg_lg t))) x h.
Proof.
  intros Hh. destruct (lg_implements (tg_lg t) HG solve gx h ltg_valid Hh) as [_ [H2 H3]]. split; [exact Hh|]. split; [exact H2|].
  intros h' H'. destruct (H3 h' H') as [A [B C]]. rewrite ltg_feat. split; [exact A|]. split; [|exact C].
  cbn [ltg_smodel sm_joint]. unfold grid_joint_feature. rewrite ltg_graph_ok. exact B.
Qed.
Lemma ltg_exact_laug solve h w : exact_solver_on solve (gr_h x * gr_w x) es -> length w = g_size (lg_graph (tg_lg t)) ->
  (0 < lg_states (tg_lg t))%nat -> labelling (gr_h x * gr_w x) (lg_states (tg_lg t)) h -> exact_laug (ltg_smodel solve t) (ltg_task t) w x h.
Proof.
  intros HS HW HK Hh. destruct (lg_exact_laug (tg_lg t) HG solve gx h w HS ltg_valid HW HK Hh) as [hh [E [L M]]].
  exists hh. split; [|split; [exact L|]].
  - cbn [ltg_smodel sm_laug]. unfold ltg_loss_augmented_inference. rewrite ltg_graph_ok. cbn [bind]. cbn [lg_smodel sm_laug] in E. rewrite E. cbn [bind].
    unfold reshape_y. rewrite (proj1 L). cbn [gx pixels gx_features mtab mrows]. rewrite Nat.eqb_refl. reflexivity.
  - intros h' H'. rewrite !ltg_feat. apply M. exact H'.
Qed.
Lemma ltg_exact_inference solve w : exact_solver_on solve (gr_h x * gr_w x) es -> length w = g_size (lg_graph (tg_lg t)) ->
  (0 < lg_states (tg_lg t))%nat -> exact_inference (ltg_smodel solve t) (ltg_task t) w x.
Proof.
  intros HS HW HK. destruct (lg_exact_inference (tg_lg t) solve gx w HS ltg_valid HW HK) as [hh [E [L M]]].
  exists hh. split; [|split; [exact L|]].
  - cbn [ltg_smodel sm_inference]. unfold grid_inference. rewrite ltg_graph_ok. cbn [bind]. cbn [lg_smodel sm_inference] in E.
    change (grid_gcrf (ltg_grid t)) with (lg_graph (tg_lg t)). rewrite E. cbn [bind].
    unfold reshape_y. rewrite (proj1 L). cbn [gx pixels gx_features mtab mrows]. rewrite Nat.eqb_refl. reflexivity.
  - intros h' H'. rewrite !ltg_feat. apply M. exact H'.
Qed.
Lemma ltg_latent_run solve y w h : lg_latent solve (tg_lg t) gx y w = Ok h -> length h = length y -> ltg_latent solve t x y w = Ok h.
Proof. intros E Q. unfold ltg_latent. rewrite ltg_graph_ok. cbn [bind]. rewrite E. cbn [bind]. rewrite Q, Nat.eqb_refl. reflexivity. Qed.
Lemma ltg_latent_inv solve y w h : ltg_latent solve t x y w = Ok h -> lg_latent solve (tg_lg t) gx y w = Ok h.
Proof.
  unfold ltg_latent. rewrite ltg_graph_ok. cbn [bind]. intros E. apply bind_ok in E. destruct E as [h' [E1 E]]. apply bind_ok in E. destruct E as [_ [_ E]].
  rewrite E1. exact E.
Qed.
Lemma ltg_completion y h w : best_completion (lg_task (tg_lg t)) (lg_E (tg_lg t)) w gx y h <->
  best_completion (ltg_task t) (grid_explains (lg_counts (tg_lg t))) w x y h.
Proof.
  split; intros [H1 H2]; (split; [exact H1|]); intros h' H'; specialize (H2 h' H').
  - rewrite !ltg_feat. exact H2.
  - rewrite !ltg_feat in H2. exact H2.
Qed.
Lemma ltg_latent_best solve y w r : exact_solver_on solve (gr_h x * gr_w x) es -> length w = g_size (lg_graph (tg_lg t)) ->
  (0 < gr_h x * gr_w x)%nat -> (0 < lg_states (tg_lg t))%nat -> labelling (gr_h x * gr_w x) (lg_labels (tg_lg t)) y ->
  ltg_latent solve t x y w = Ok r ->
  best_completion (ltg_task t) (grid_explains (lg_counts (tg_lg t))) w x y r \/ r = map (offset (lg_counts (tg_lg t))) y.
Proof.
  intros HS HW HN HK HY E. apply ltg_latent_inv in E.
  destruct (g_potentials_ok _ gx w ltg_valid HW) as [U [P [EP _]]].
  destruct (latent_best (tg_lg t) HG gx w y ltg_valid HW (proj1 HY) HN HK solve r U P HS EP) as [H|H]; [|exact E| |right; exact H].
  - apply Forall_impl with (2 := proj2 HY). intros l Hl. cbv beta in *. lia.
  - left. apply ltg_completion. apply (best_is_completion (tg_lg t) gx w U P y r ltg_valid HW EP (proj1 HY)). exact H.
Qed.
Lemma ltg_latent_exact solve cluster y w U P B B' : exact_solver_on solve (gr_h x * gr_w x) es -> length w = g_size (lg_graph (tg_lg t)) ->
  (0 < gr_h x * gr_w x)%nat -> labelling (gr_h x * gr_w x) (lg_labels (tg_lg t)) y -> Forall (fun c => (0 < c)%nat) (lg_counts (tg_lg t)) ->
  g_potentials (lg_graph (tg_lg t)) gx w = Ok (U, P) ->
  (forall i s, (i < gr_h x * gr_w x)%nat -> (s < lg_states (tg_lg t))%nat -> - B <= mget U i s /\ mget U i s <= B) ->
  (forall s u, (s < lg_states (tg_lg t))%nat -> (u < lg_states (tg_lg t))%nat -> - B' <= mget P s u /\ mget P s u <= B') ->
  ofN (gr_h x * gr_w x) * (B + B) + ofN (length es) * (B' + B') < ofN 100 ->
  latent_exact (ltg_lmodel solve cluster t) (ltg_task t) (grid_explains (lg_counts (tg_lg t))) (g_size (lg_graph (tg_lg t))) w (x, y).
Proof.
  intros HS HW HN HY HC EP HU HP HSM.
  destruct (lg_latent_exact (tg_lg t) solve cluster gx y w U P B B' HG HS ltg_valid HW HN HY HC EP HU HP HSM) as [[[h0 A1] [A2 A3]] [[h [B1 B2]] C]].
  assert (HX : forall h, explains (lg_counts (tg_lg t)) h y -> labelling (gr_h x * gr_w x) (lg_states (tg_lg t)) h).
  { intros h' H'. apply (explains_labelling _ _ y); [exact H'|apply HY]. }
  assert (HK : (0 < lg_states (tg_lg t))%nat).
  { pose proof (HX h0 A1) as [Q1 Q2]. destruct h0 as [|s h0]; [cbn in Q1; lia|]. inversion Q2; subst. lia. }
  split; [split; [exists h0; exact A1|split]|split].
  - intros h' H'. apply ltg_implements. apply HX. exact H'.
  - intros h1 h2 z H1 H2 Hz. exact (A3 h1 h2 z H1 H2 Hz).
  - exists h. split; [|apply ltg_completion; exact B2]. apply ltg_latent_run; [exact B1|]. cbn [snd]. apply (explains_length _ _ _ (proj1 B2)).
  - intros h' H'. apply ltg_exact_laug; try assumption. apply HX. exact H'.
Qed.
End Grid.
Lemma ltg_latent_explains t solve x y w r : laid_out (tg_lg t) ->
  Forall (fun l => (l < lg_labels (tg_lg t))%nat) y -> Forall (fun c => (0 < c)%nat) (lg_counts (tg_lg t)) ->
  ltg_latent solve t x y w = Ok r -> explains (lg_counts (tg_lg t)) r y.
Proof.
  intros HG HY HC E. unfold ltg_latent in E. apply bind_ok in E. destruct E as [gx [_ E]]. apply bind_ok in E. destruct E as [h [E1 E]].
  apply bind_ok in E. destruct E as [_ [_ E]]. injection E as <-. apply (latent_consistent solve (tg_lg t) gx y w); [exact HG| |exact E1]. apply counts_pos; assumption.
Qed.

(** ** latent completion with one table per edge *)
Section Tables.
Variables (g : lg_crf) (n : nat) (es : list (nat * nat)) (U : mat) (P : pairwise) (y : list nat) (M : Qc) (solve : solver).
Hypothesis HG : laid_out g.
Hypothesis HE : graph_edges n es.
Hypothesis OU : mat_ok U.
Hypothesis RU : mrows U = n.
Hypothesis CU : mcols U = lg_states g.
Hypothesis SP : pw_shape P (length es) (lg_states g).
Hypothesis HS : exact_on_tables solve n es.
Hypothesis HK : (0 < lg_states g)%nat.
Hypothesis HY : length y = n.
Lemma table_get i s : (i < n)%nat -> (s < lg_states g)%nat ->
  mget (forbid g y U M) i s = if (owner (lg_counts g) s =? lab y i)%nat then mget U i s else - ofN 100 * M.
Proof.
  intros Hi Hs. unfold forbid. rewrite mget_mtab by (rewrite ?RU, ?CU; assumption). destruct HG as [_ [_ H]]. rewrite H by exact Hs. reflexivity.
Qed.
Lemma table_score h : explains (lg_counts g) h y ->
  score n es (mget (forbid g y U M)) (pw_table P) (lab h) = score n es (mget U) (pw_table P) (lab h).
Proof.
  intros H. unfold score. f_equal. apply sumn_ext. intros i Hi. pose proof (explains_lab _ _ _ H i ltac:(lia)) as B.
  rewrite table_get by (try assumption; apply (block_states _ _ _ B)). rewrite (block_owner _ _ _ B), Nat.eqb_refl. reflexivity.
Qed.
Lemma table_solved : exists h, solve (forbid g y U M) P es = Ok h /\ maximiser n (lg_states g) es (mget (forbid g y U M)) (pw_table P) h.
Proof. apply HS; try assumption. apply mtab_ok. Qed.
Lemma table_best h r : maximiser n (lg_states g) es (mget (forbid g y U M)) (pw_table P) h ->
  Forall (fun l => (l <= lg_labels g)%nat) y -> settle g y h = Ok r ->
  best_explanation (lg_counts g) n es (mget U) (pw_table P) y r \/ r = map (offset (lg_counts g)) y.
Proof.
  intros [L1 L2] HB E. destruct (settle_cases g y h r HG E) as [[H ->]|[_ H]].
  - left. split; [exact H|]. intros h' H'. rewrite <- (table_score h H), <- (table_score h' H').
    apply L2. apply (explains_labelling _ _ y); [exact H'|exact HY].
  - right. rewrite fallback_ok in H; [congruence|]. destruct HG as [HL _]. rewrite HL. exact HB.
Qed.
Lemma table_small h B B' : maximiser n (lg_states g) es (mget (forbid g y U M)) (pw_table P) h -> (0 < n)%nat -> 1 <= M ->
  Forall (fun l => (l < lg_labels g)%nat /\ (0 < nth l (lg_counts g) 0)%nat) y ->
  (forall i s, (i < n)%nat -> (s < lg_states g)%nat -> - B <= mget U i s /\ mget U i s <= B) ->
  (forall e s t, (e < length es)%nat -> (s < lg_states g)%nat -> (t < lg_states g)%nat -> - B' <= pw_table P e s t /\ pw_table P e s t <= B') ->
  ofN n * (B + B) + ofN (length es) * (B' + B') < ofN 100 ->
  settle g y h = Ok h /\ best_explanation (lg_counts g) n es (mget U) (pw_table P) y h.
Proof.
  intros [L1 L2] HN M1 HB HU HP HSM. assert (HL : length (lg_counts g) = lg_labels g) by apply HG.
  set (h0 := map (offset (lg_counts g)) y). assert (X0 : explains (lg_counts g) h0 y) by (apply first_explains; rewrite HL; exact HB).
  pose proof (explains_labelling _ _ _ _ X0 HY) as L0. change (list_sum (lg_counts g)) with (lg_states g) in L0.
  assert (H : explains (lg_counts g) h y).
  { destruct (list_eq_dec Nat.eq_dec (map (owner (lg_counts g)) h) y) as [D|D]; [rewrite <- D; apply owner_explains; exact (proj2 L1)|exfalso].
    assert (BAD : exists i, (i < n)%nat /\ owner (lg_counts g) (lab h i) <> lab y i).
    { assert (LL : length (map (owner (lg_counts g)) h) = length y) by (rewrite map_length, (proj1 L1); congruence).
      revert D LL. destruct L1 as [L1 _]. rewrite <- HY in L1 |- *. clear -L1. revert L1. generalize y as z. induction h as [|s h' IH]; intros [|l z] L D LL; try discriminate L; [destruct D; reflexivity|].
      destruct (Nat.eq_dec (owner (lg_counts g) s) l) as [Q|Q]; [|exists O; split; [cbn; lia|exact Q]].
      destruct (IH z) as [i [I1 I2]]; [cbn in L; lia|intros Q'; apply D; cbn; congruence|cbn in LL; lia|].
      exists (S i). split; [cbn; lia|exact I2]. }
    destruct BAD as [i [Hi Hbad]].
    assert (B0 : 0 <= B) by (destruct (HU O O HN HK); qclra).
    assert (M100 : ofN 100 <= ofN 100 * M).
    { replace (ofN 100 * M) with (ofN 100 + ofN 100 * (M - 1)) by ring. assert (0 <= ofN 100 * (M - 1)) by (apply Qcmult_nonneg; [apply ofN_nonneg|qclra]). qclra. }
    specialize (L2 h0 L0). rewrite (table_score h0 X0) in L2. unfold score in L2.
    set (pt := fun z e => pw_table P e (lab z (fst (nth e es (0, 0)%nat))) (lab z (snd (nth e es (0, 0)%nat)))).
    assert (EP0 : forall z, labelling n (lg_states g) z ->
       - (ofN (length es) * B') <= sumn (length es) (pt z) /\ sumn (length es) (pt z) <= ofN (length es) * B').
    { intros z Lz. assert (Q : forall e, (e < length es)%nat -> - B' <= pt z e /\ pt z e <= B').
      { intros e He. destruct (graph_edges_nth _ _ e HE He) as [G1 G2]. apply HP; [exact He| |]; apply (labelling_lt n); assumption. }
      split.
      - replace (- (ofN (length es) * B')) with (sumn (length es) (fun _ => - B')) by (rewrite sumn_const; ring). apply sumn_le. intros e He. apply Q, He.
      - rewrite <- sumn_const. apply sumn_le. intros e He. apply Q, He. }
    assert (U0 : - (ofN n * B) <= sumn n (fun i => mget U i (lab h0 i))).
    { replace (- (ofN n * B)) with (sumn n (fun _ => - B)) by (rewrite sumn_const; ring). apply sumn_le. intros j Hj. apply HU; [exact Hj|]. apply (labelling_lt n); assumption. }
    assert (U1 : sumn n (fun i => mget (forbid g y U M) i (lab h i)) <= ofN n * B - ofN 100 * M).
    { apply Qcle_trans with (sumn n (fun j => B + (if (j =? i)%nat then - ofN 100 * M else 0))).
      - apply sumn_le. intros j Hj. pose proof (labelling_lt _ _ _ j L1 Hj) as Ls. rewrite table_get by assumption.
        destruct (Nat.eqb_spec j i) as [->|Nj].
        + apply Nat.eqb_neq in Hbad. rewrite Hbad. qclra.
        + destruct (owner (lg_counts g) (lab h j) =? lab y j)%nat; [destruct (HU j (lab h j) Hj Ls); qclra|].
          assert (0 <= ofN 100) by apply ofN_nonneg. set (q := ofN 100 * M) in *. replace (- ofN 100 * M) with (- q) by (unfold q; ring). qclra.
      - rewrite sumn_plus, sumn_const. rewrite (sumn_ext n (fun j => if (j =? i)%nat then - ofN 100 * M else 0) (fun j => ind (j =? i)%nat * (- ofN 100 * M))).
        2:{ intros j _. destruct (j =? i)%nat; cbn [ind]; ring. }
        rewrite (sumn_pick n i (fun _ => - ofN 100 * M)) by exact Hi.
        replace (ofN n * B + - ofN 100 * M) with (ofN n * B - ofN 100 * M) by ring. apply Qcle_refl. }
    destruct (EP0 h L1) as [_ P1]. destruct (EP0 h0 L0) as [P0 _]. fold (pt h) (pt h0) in L2.
    set (a := sumn n (fun i => mget (forbid g y U M) i (lab h i))) in *. set (a0 := sumn n (fun i => mget U i (lab h0 i))) in *.
    set (b := sumn (length es) (pt h)) in *. set (b0 := sumn (length es) (pt h0)) in *.
    set (nb := ofN n * B) in *. set (eb := ofN (length es) * B') in *.
    replace (ofN n * (B + B)) with (nb + nb) in HSM by (unfold nb; ring). replace (ofN (length es) * (B' + B')) with (eb + eb) in HSM by (unfold eb; ring).
    clearbody a a0 b b0 nb eb. set (hm := ofN 100 * M) in *. clearbody hm. generalize dependent (ofN 100). intros. qclra. }
  split; [apply settle_consistent; assumption|]. split; [exact H|].
  intros h' H'. rewrite <- (table_score h H), <- (table_score h' H').
  apply L2. apply (explains_labelling _ _ y); [exact H'|exact HY].
Qed.
End Tables.

(** Latent completion, loss augmentation and losses of LatentGraphCRF. *)
From Verif Require Import Model.LatentGraph Model.LatentLearner Spec.GraphSpec Spec.SolverSpec
  Proofs.Arrays Proofs.EnergyProofs Proofs.GraphCRFProofs Proofs.LossProofs Proofs.CRFProofs Proofs.MaxProdProofs
  Proofs.LatentProofs Spec.LatentSpec.

Lemma explains_labelling counts h y n : explains counts h y -> length y = n -> labelling n (list_sum counts) h.
Proof.
  intros H L. split; [rewrite (explains_length _ _ _ H); exact L|]. clear L. unfold explains in H.
  induction H as [|s l h y H1 H2 IH]; constructor; [apply (block_states _ l), H1|exact IH].
Qed.
Lemma explains_lab counts h y : explains counts h y -> forall i, (i < length y)%nat -> in_block counts (lab y i) (lab h i).
Proof.
  intros H. induction H as [|s l h y H1 H2 IH]; intros i Hi; [cbn in Hi; lia|]. destruct i; [exact H1|]. apply IH. cbn in Hi. lia.
Qed.
Lemma explains_map_owner counts h y : explains counts h y -> map (owner counts) h = y.
Proof. intros H. induction H as [|s l h y H1 H2 IH]; [reflexivity|]. cbn [map]. rewrite IH, (block_owner _ _ _ H1). reflexivity. Qed.
Lemma owner_explains counts h : Forall (fun s => (s < list_sum counts)%nat) h -> explains counts h (map (owner counts) h).
Proof. intros H. induction H; constructor; [apply owner_block; assumption|assumption]. Qed.
Lemma first_in_block counts l : (l < length counts)%nat -> (0 < nth l counts 0)%nat -> in_block counts l (offset counts l).
Proof. intros H1 H2. split; [exact H1|]. rewrite offset_S by exact H1. lia. Qed.
Lemma first_explains counts y : Forall (fun l => (l < length counts)%nat /\ (0 < nth l counts 0)%nat) y -> explains counts (map (offset counts) y) y.
Proof. intros H. induction H as [|l y [H1 H2] H3 IH]; constructor; [apply first_in_block; assumption|exact IH]. Qed.
Lemma offset_index counts l : (l <= length counts)%nat -> index (O :: np_cumsum counts) l = Ok (offset counts l).
Proof.
  intros H. rewrite (index_ok _ _ O) by (cbn [length]; unfold np_cumsum; rewrite cumsum_from_length; lia).
  destruct l as [|l]; [reflexivity|]. cbn [nth]. rewrite cumsum_nth by lia. reflexivity.
Qed.
Lemma fallback_ok counts y : Forall (fun l => (l <= length counts)%nat) y -> mapM (index (O :: np_cumsum counts)) y = Ok (map (offset counts) y).
Proof. intros H. apply mapM_ok. intros a Ha. rewrite Forall_forall in H. apply offset_index, H, Ha. Qed.
Lemma mismatch_zero a b d : mismatch a b = Ok d -> forallb (fun q => Qceqb q 0) d = true -> a = b.
Proof.
  unfold mismatch. destruct (Nat.eqb_spec (length a) (length b)) as [L|L]; intros E H; [|discriminate E]. injection E as <-.
  revert b L H. induction a as [|x a IH]; intros [|z b] L H; try discriminate L; [reflexivity|]. cbn [zipw forallb] in H.
  apply andb_true_iff in H. destruct H as [H1 H2]. destruct (Nat.eqb_spec x z) as [->|N].
  - f_equal. apply IH; [cbn in L; lia|exact H2].
  - exfalso. cbn [negb ind] in H1. apply Qceqb_eq in H1. discriminate H1.
Qed.
Lemma mismatch_same a : exists d, mismatch a a = Ok d /\ forallb (fun q => Qceqb q 0) d = true.
Proof.
  unfold mismatch. rewrite Nat.eqb_refl. eexists. split; [reflexivity|]. induction a as [|x a IH]; [reflexivity|].
  cbn [zipw forallb]. rewrite Nat.eqb_refl. cbn [negb ind]. rewrite IH. reflexivity.
Qed.

(** the consistency check after inference *)
Definition settle (g : lg_crf) (y h : list nat) : res (list nat) :=
  let! labels := label_from_latent g h in
  let! d := mismatch labels y in
  if forallb (fun q => Qceqb q 0) d then Ok h else mapM (index (O :: np_cumsum (lg_counts g))) y.
Lemma settle_cases g y h r : laid_out g -> settle g y h = Ok r ->
  (explains (lg_counts g) h y /\ r = h) \/ (~ explains (lg_counts g) h y /\ mapM (index (O :: np_cumsum (lg_counts g))) y = Ok r).
Proof.
  intros HG E. unfold settle in E. apply bind_ok in E. destruct E as [labels [E1 E]]. apply bind_ok in E. destruct E as [d [E2 E]].
  pose proof (proj1 (label_explains g HG _ _) E1) as HE. destruct (forallb _ d) eqn:FB.
  - left. injection E as <-. rewrite <- (mismatch_zero _ _ _ E2 FB). split; [exact HE|reflexivity].
  - right. split; [|exact E]. intros HY. pose proof (explains_map_owner _ _ _ HE) as A. pose proof (explains_map_owner _ _ _ HY) as B.
    rewrite A in B. subst labels. destruct (mismatch_same y) as [d' [F1 F2]]. congruence.
Qed.
Lemma settle_consistent g y h : laid_out g -> explains (lg_counts g) h y -> settle g y h = Ok h.
Proof.
  intros HG HE. unfold settle. rewrite (proj2 (label_explains g HG _ _) HE). cbn [bind]. destruct (mismatch_same y) as [d [E F]]. rewrite E. cbn [bind]. rewrite F. reflexivity.
Qed.
Lemma settle_inconsistent g y h : laid_out g -> Forall (fun s => (s < lg_states g)%nat) h -> length h = length y -> ~ explains (lg_counts g) h y ->
  settle g y h = mapM (index (O :: np_cumsum (lg_counts g))) y.
Proof.
  intros HG HF HL HN. unfold settle. rewrite (label_ok g HG) by exact HF. cbn [bind].
  assert (exists d, mismatch (map (owner (lg_counts g)) h) y = Ok d) as [d E].
  { unfold mismatch. rewrite map_length, HL, Nat.eqb_refl. eexists. reflexivity. }
  rewrite E. cbn [bind]. destruct (forallb _ d) eqn:FB; [|reflexivity]. exfalso. apply HN. rewrite <- (mismatch_zero _ _ _ E FB). apply owner_explains, HF.
Qed.
Lemma settle_explains g y h r : laid_out g -> Forall (fun l => (l < lg_labels g)%nat /\ (0 < nth l (lg_counts g) 0)%nat) y ->
  settle g y h = Ok r -> explains (lg_counts g) r y.
Proof.
  intros HG HY E. assert (HL : length (lg_counts g) = lg_labels g) by apply HG.
  destruct (settle_cases g y h r HG E) as [[H ->]|[_ H]]; [exact H|].
  rewrite fallback_ok in H by (apply Forall_impl with (2 := HY); intros l [Q _]; rewrite HL; lia). injection H as <-.
  apply first_explains. rewrite HL. exact HY.
Qed.

(** latent: the solver runs on modified unary potentials, then [settle] *)
Lemma latent_settles solve g x y w r : lg_latent solve g x y w = Ok r -> exists h, settle g y h = Ok r.
Proof.
  unfold lg_latent. intros E. repeat (apply bind_ok in E; destruct E as [? [? E]]).
  match goal with H : label_from_latent g ?h = Ok _ |- _ => exists h; unfold settle; rewrite H end.
  match goal with H : mismatch _ _ = Ok _ |- _ => cbn [bind]; rewrite H end. exact E.
Qed.
Lemma latent_consistent solve g x y w r : laid_out g -> Forall (fun l => (l < lg_labels g)%nat /\ (0 < nth l (lg_counts g) 0)%nat) y ->
  lg_latent solve g x y w = Ok r -> explains (lg_counts g) r y.
Proof. intros HG HY E. destruct (latent_settles _ _ _ _ _ _ E) as [h H]. exact (settle_explains g y h r HG HY H). Qed.

(** what the solver is given *)
Definition forbid (g : lg_crf) (y : list nat) (U : mat) (M : Qc) : mat :=
  mtab (mrows U) (mcols U) (fun i s => if (nth s (lg_map g) O =? nth i y O)%nat then mget U i s else - ofN 100 * M).
Section Latent.
Variable g : lg_crf.
Hypothesis HG : laid_out g.
Variables (x : graph_x) (w : list Qc) (y : list nat).
Hypothesis HX : valid_x (lg_graph g) x.
Hypothesis HW : length w = g_size (lg_graph g).
Hypothesis HY : length y = mrows (gx_features x).
Hypothesis HN : (0 < mrows (gx_features x))%nat.
Hypothesis HS : (0 < lg_states g)%nat.
Let n := mrows (gx_features x).
Lemma latent_run solve : exists U P M, g_potentials (lg_graph g) x w = Ok (U, P) /\ 1 <= M /\
  mat_ok U /\ mrows U = n /\ mcols U = lg_states g /\ mat_ok P /\ mrows P = lg_states g /\ mcols P = lg_states g /\
  (forall i s, (i < n)%nat -> (s < lg_states g)%nat -> mget U i s <= M) /\
  lg_latent solve g x y w = (let! h := solve (forbid g y U M) (Pw2 P) (gx_edges x) in settle g y h).
Proof.
  destruct (g_potentials_ok _ x w HX HW) as [U [P [E [OU [RU [CU [OP [RP [CP [GU GP]]]]]]]]]].
  assert (HR : forall i s, (i < n)%nat -> (s < lg_states g)%nat -> In (mget U i s) (ravel U)).
  { intros i s Hi Hs. unfold ravel, mget, get2, get1. apply in_concat. exists (nth i (mdat U) []). destruct OU as [O1 O2].
    assert (I : In (nth i (mdat U) []) (mdat U)) by (apply nth_In; rewrite O1, RU; exact Hi). split; [exact I|]. apply nth_In.
    rewrite Forall_forall in O2. rewrite (O2 _ I), CU. exact Hs. }
  assert (exists mx, np_max (ravel U) = Ok mx) as [mx Emx].
  { apply np_max_ok. pose proof (HR O O HN HS) as I. destruct (ravel U); [destruct I|cbn; lia]. }
  exists U, P, (Qcmax mx 1). split; [exact E|]. split; [unfold Qcmax; destruct (Qcleb_spec mx 1); qclra|].
  repeat (split; [assumption|]). split.
  { intros i s Hi Hs. pose proof (proj2 (np_max_spec _ _ Emx) _ (HR i s Hi Hs)). unfold Qcmax. destruct (Qcleb_spec mx 1); qclra. }
  unfold g_potentials in E. rewrite check_size_w_ok in E by exact HW. cbn [bind] in E. apply bind_ok in E. destruct E as [U' [E1 E]].
  apply bind_ok in E. destruct E as [P' [E2 E]]. assert (U' = U /\ P' = P) as [-> ->] by (split; congruence).
  unfold lg_latent. rewrite E1. cbn [bind]. rewrite Emx. cbn [bind].
  destruct HG as [_ [HM _]]. cbn [g_states lg_graph] in CU. rewrite RU, CU, HY, HM, !Nat.eqb_refl. cbn [andb ensure bind].
  rewrite E2. cbn [bind]. unfold forbid. rewrite RU, CU. reflexivity.
Qed.
Lemma forbid_get U M i s : mrows U = n -> mcols U = lg_states g -> (i < n)%nat -> (s < lg_states g)%nat ->
  mget (forbid g y U M) i s = if (owner (lg_counts g) s =? lab y i)%nat then mget U i s else - ofN 100 * M.
Proof.
  intros R C Hi Hs. unfold forbid. rewrite mget_mtab by (rewrite ?R, ?C; assumption). destruct HG as [_ [_ H]]. rewrite H by exact Hs. reflexivity.
Qed.
Lemma latent_total solve : Forall (fun l => (l <= lg_labels g)%nat) y ->
  (forall U P, mat_ok U -> mat_ok P -> mrows U = n -> mcols U = lg_states g -> mrows P = lg_states g -> mcols P = lg_states g ->
     exists h, solve U (Pw2 P) (gx_edges x) = Ok h /\ labelling n (lg_states g) h) ->
  exists r, lg_latent solve g x y w = Ok r.
Proof.
  intros HB HSO. destruct (latent_run solve) as [U [P [M [E [M1 [OU [RU [CU [OP [RP [CP [HM R]]]]]]]]]]]].
  destruct (HSO (forbid g y U M) P) as [h [E1 [L1 L2]]]; try assumption; try apply mtab_ok.
  rewrite R, E1. cbn [bind].
  assert (DEC : explains (lg_counts g) h y \/ ~ explains (lg_counts g) h y).
  { destruct (list_eq_dec Nat.eq_dec (map (owner (lg_counts g)) h) y) as [D|D].
    - left. rewrite <- D. apply owner_explains. exact L2.
    - right. intros H. apply D. apply explains_map_owner. exact H. }
  destruct DEC as [D|D].
  - exists h. apply settle_consistent; assumption.
  - rewrite settle_inconsistent; [|assumption|exact L2|unfold n in L1; lia|exact D].
    rewrite fallback_ok; [eexists; reflexivity|]. destruct HG as [HL _]. rewrite HL. exact HB.
Qed.
Lemma latent_total_explains solve : Forall (fun l => (l < lg_labels g)%nat /\ (0 < nth l (lg_counts g) 0)%nat) y ->
  (forall U P, mat_ok U -> mat_ok P -> mrows U = n -> mcols U = lg_states g -> mrows P = lg_states g -> mcols P = lg_states g ->
     exists h, solve U (Pw2 P) (gx_edges x) = Ok h /\ labelling n (lg_states g) h) ->
  exists r, lg_latent solve g x y w = Ok r /\ explains (lg_counts g) r y.
Proof.
  intros HB HSO. destruct (latent_total solve) as [r E]; [apply Forall_impl with (2 := HB); intros l [Q _]; lia|exact HSO|].
  exists r. split; [exact E|]. apply (latent_consistent solve g x y w); assumption.
Qed.
(** scores of explanations do not change *)
Lemma forbid_score U P M h : mrows U = n -> mcols U = lg_states g -> explains (lg_counts g) h y ->
  score n (gx_edges x) (mget (forbid g y U M)) (fun _ => mget P) (lab h) = score n (gx_edges x) (mget U) (fun _ => mget P) (lab h).
Proof.
  intros R C H. unfold score. f_equal. apply sumn_ext. intros i Hi. pose proof (explains_lab _ _ _ H i ltac:(unfold n in Hi; lia)) as B.
  rewrite forbid_get by (try assumption; apply (block_states _ _ _ B)). rewrite (block_owner _ _ _ B), Nat.eqb_refl. reflexivity.
Qed.
Lemma latent_best solve r U P : exact_solver_on solve n (gx_edges x) -> g_potentials (lg_graph g) x w = Ok (U, P) ->
  Forall (fun l => (l <= lg_labels g)%nat) y ->
  lg_latent solve g x y w = Ok r ->
  best_explanation (lg_counts g) n (gx_edges x) (mget U) (fun _ => mget P) y r \/ r = map (offset (lg_counts g)) y.
Proof.
  intros HE EP HB E. destruct (latent_run solve) as [U' [P' [M [E' [M1 [OU [RU [CU [OP [RP [CP [HM R]]]]]]]]]]]].
  assert (U' = U /\ P' = P) as [-> ->] by (split; congruence). clear E'.
  destruct (HE (forbid g y U M) P (lg_states g)) as [h [E1 [L1 L2]]]; try assumption; try apply mtab_ok.
  rewrite R, E1 in E. cbn [bind] in E. destruct (settle_cases g y h r HG E) as [[H ->]|[_ H]].
  - left. split; [exact H|]. intros h' H'. rewrite <- (forbid_score U P M h RU CU H), <- (forbid_score U P M h' RU CU H').
    apply L2. apply (explains_labelling _ _ y); [exact H'|exact HY].
  - right. rewrite fallback_ok in H; [congruence|]. destruct HG as [HL _]. rewrite HL. exact HB.
Qed.
Lemma latent_best_small solve U P B B' : exact_solver_on solve n (gx_edges x) -> g_potentials (lg_graph g) x w = Ok (U, P) ->
  Forall (fun l => (l < lg_labels g)%nat /\ (0 < nth l (lg_counts g) 0)%nat) y ->
  (forall i s, (i < n)%nat -> (s < lg_states g)%nat -> - B <= mget U i s /\ mget U i s <= B) ->
  (forall s t, (s < lg_states g)%nat -> (t < lg_states g)%nat -> - B' <= mget P s t /\ mget P s t <= B') ->
  ofN n * (B + B) + ofN (length (gx_edges x)) * (B' + B') < ofN 100 ->
  exists r, lg_latent solve g x y w = Ok r /\ best_explanation (lg_counts g) n (gx_edges x) (mget U) (fun _ => mget P) y r.
Proof.
  intros HE EP HB HU HP HSM. destruct (latent_run solve) as [U' [P' [M [E' [M1 [OU [RU [CU [OP [RP [CP [HM R]]]]]]]]]]]].
  assert (U' = U /\ P' = P) as [-> ->] by (split; congruence). clear E'.
  assert (HL : length (lg_counts g) = lg_labels g) by apply HG.
  destruct (HE (forbid g y U M) P (lg_states g)) as [h [E1 [L1 L2]]]; try assumption; try apply mtab_ok.
  set (h0 := map (offset (lg_counts g)) y). assert (X0 : explains (lg_counts g) h0 y) by (apply first_explains; rewrite HL; exact HB).
  pose proof (explains_labelling _ _ _ _ X0 HY) as L0. fold n in L0.
  assert (H : explains (lg_counts g) h y).
  { destruct (list_eq_dec Nat.eq_dec (map (owner (lg_counts g)) h) y) as [D|D]; [rewrite <- D; apply owner_explains; exact (proj2 L1)|exfalso].
    assert (BAD : exists i, (i < n)%nat /\ owner (lg_counts g) (lab h i) <> lab y i).
    { assert (LL : length (map (owner (lg_counts g)) h) = length y) by (rewrite map_length, (proj1 L1); unfold n; congruence).
      revert D LL. destruct L1 as [L1 _]. unfold n in *. rewrite <- HY in L1 |- *. clear -L1. revert L1. generalize y as z. induction h as [|s h' IH]; intros [|l z] L D LL; try discriminate L; [destruct D; reflexivity|].
      destruct (Nat.eq_dec (owner (lg_counts g) s) l) as [Q|Q]; [|exists O; split; [cbn; lia|exact Q]].
      destruct (IH z) as [i [I1 I2]]; [cbn in L; lia|intros Q'; apply D; cbn; congruence|cbn in LL; lia|].
      exists (S i). split; [cbn; lia|exact I2]. }
    destruct BAD as [i [Hi Hbad]].
    assert (B0 : 0 <= B) by (destruct (HU O O HN HS); qclra).
    assert (M100 : ofN 100 <= ofN 100 * M).
    { replace (ofN 100 * M) with (ofN 100 + ofN 100 * (M - 1)) by ring. assert (0 <= ofN 100 * (M - 1)) by (apply Qcmult_nonneg; [apply ofN_nonneg|qclra]). qclra. }
    specialize (L2 h0 L0). rewrite (forbid_score U P M h0 RU CU X0) in L2. unfold score in L2.
    assert (EP0 : forall z, labelling n (lg_states g) z ->
       - (ofN (length (gx_edges x)) * B') <= sumn (length (gx_edges x)) (fun e => mget P (lab z (fst (nth e (gx_edges x) (0, 0)%nat))) (lab z (snd (nth e (gx_edges x) (0, 0)%nat)))) /\
       sumn (length (gx_edges x)) (fun e => mget P (lab z (fst (nth e (gx_edges x) (0, 0)%nat))) (lab z (snd (nth e (gx_edges x) (0, 0)%nat)))) <= ofN (length (gx_edges x)) * B').
    { intros z Lz. assert (Q : forall e, (e < length (gx_edges x))%nat -> - B' <= mget P (lab z (fst (nth e (gx_edges x) (0, 0)%nat))) (lab z (snd (nth e (gx_edges x) (0, 0)%nat))) /\
         mget P (lab z (fst (nth e (gx_edges x) (0, 0)%nat))) (lab z (snd (nth e (gx_edges x) (0, 0)%nat))) <= B').
      { intros e He. destruct (graph_edges_nth _ _ e (vx_edges _ _ HX) He) as [G1 G2]. apply HP; apply (labelling_lt n); assumption. }
      split.
      - replace (- (ofN (length (gx_edges x)) * B')) with (sumn (length (gx_edges x)) (fun _ => - B')) by (rewrite sumn_const; ring). apply sumn_le. intros e He. apply Q, He.
      - rewrite <- sumn_const. apply sumn_le. intros e He. apply Q, He. }
    assert (U0 : - (ofN n * B) <= sumn n (fun i => mget U i (lab h0 i))).
    { replace (- (ofN n * B)) with (sumn n (fun _ => - B)) by (rewrite sumn_const; ring). apply sumn_le. intros j Hj. apply HU; [exact Hj|]. apply (labelling_lt n); assumption. }
    assert (U1 : sumn n (fun i => mget (forbid g y U M) i (lab h i)) <= ofN n * B - ofN 100 * M).
    { apply Qcle_trans with (sumn n (fun j => B + (if (j =? i)%nat then - ofN 100 * M else 0))).
      - apply sumn_le. intros j Hj. pose proof (labelling_lt _ _ _ j L1 Hj) as Ls. rewrite forbid_get by assumption.
        destruct (Nat.eqb_spec j i) as [->|Nj].
        + apply Nat.eqb_neq in Hbad. rewrite Hbad. qclra.
        + destruct (owner (lg_counts g) (lab h j) =? lab y j)%nat; [destruct (HU j (lab h j) Hj Ls); qclra|].
          assert (0 <= ofN 100) by apply ofN_nonneg. set (q := ofN 100 * M) in *. replace (- ofN 100 * M) with (- q) by (unfold q; ring). qclra.
      - rewrite sumn_plus, sumn_const. rewrite (sumn_ext n (fun j => if (j =? i)%nat then - ofN 100 * M else 0) (fun j => ind (j =? i)%nat * (- ofN 100 * M))).
        2:{ intros j _. destruct (j =? i)%nat; cbn [ind]; ring. }
        rewrite (sumn_pick n i (fun _ => - ofN 100 * M)) by exact Hi.
        replace (ofN n * B + - ofN 100 * M) with (ofN n * B - ofN 100 * M) by ring. apply Qcle_refl. }
    destruct (EP0 h L1) as [_ P1]. destruct (EP0 h0 L0) as [P0 _].
    set (a := sumn n _) in *. set (a0 := sumn n (fun i => mget U i (lab h0 i))) in *. set (b := sumn _ _) in *. set (b0 := sumn _ _) in *.
    set (nb := ofN n * B) in *. set (eb := ofN (length (gx_edges x)) * B') in *.
    replace (ofN n * (B + B)) with (nb + nb) in HSM by (unfold nb; ring). replace (ofN (length (gx_edges x)) * (B' + B')) with (eb + eb) in HSM by (unfold eb; ring).
    clearbody a a0 b b0 nb eb. set (hm := ofN 100 * M) in *. clearbody hm. generalize dependent (ofN 100). intros. qclra. }
  exists h. rewrite R, E1. cbn [bind]. split; [apply settle_consistent; assumption|]. split; [exact H|].
  intros h' H'. rewrite <- (forbid_score U P M h RU CU H), <- (forbid_score U P M h' RU CU H').
  apply L2. apply (explains_labelling _ _ y); [exact H'|exact HY].
Qed.
End Latent.

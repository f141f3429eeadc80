(** Solving the relaxation with 'lp' and 'ad3'; rounding. *)
From Coq Require Import String.
From Verif Require Import Model.LP Model.Inference Model.CRF Model.Loss Model.RelaxedCRF Spec.Energy Spec.SolverSpec Spec.LocalPolytope Spec.LPSpec
  Spec.GraphSpec Spec.LossSpec Spec.BinaryLPSpec Spec.NSlackSpec Spec.RelaxedSpec
  Proofs.Arrays Proofs.EnergyProofs Proofs.GraphCRFProofs Proofs.LossProofs Proofs.CRFProofs Proofs.LPProofs Proofs.LPProofs2
  Proofs.InferenceProofs Proofs.ForestLP Proofs.ForestLP2 Proofs.BinaryLP3 Proofs.InstanceProofs Proofs.LearnerProofs Proofs.FourierMotzkin Proofs.RelaxedTask.
Open Scope Qc_scope.

(** ** the linear program has an optimum *)
Lemma le_abs (m u : Qc) : 0 <= m -> m <= 1 -> m * u <= Qcmax u (- u).
Proof.
  intros H0 H1. unfold Qcmax. destruct (Qcleb_spec u (- u)) as [G|G].
  - assert (D : 0 <= m * (- u - u)) by (apply Qcmult_nonneg; [exact H0|qclra]).
    assert (D2 : 0 <= (1 - m) * (- u)) by (apply Qcmult_nonneg; qclra).
    replace (m * (- u - u)) with (- (m * u) - m * u) in D by ring.
    replace ((1 - m) * - u) with (m * u - u) in D2 by ring. revert D D2. generalize (m * u). intros; qclra.
  - assert (D2 : 0 <= (1 - m) * u) by (apply Qcmult_nonneg; qclra).
    replace ((1 - m) * u) with (u - m * u) in D2 by ring. revert D2. generalize (m * u). intros; qclra.
Qed.
Lemma polytope_le_one n k edges mu nu : graph_edges n edges -> local_polytope n k edges mu nu ->
  (forall i s, (i < n)%nat -> (s < k)%nat -> mu i s <= 1) /\
  (forall e s t, (e < length edges)%nat -> (s < k)%nat -> (t < k)%nat -> nu e s t <= 1).
Proof.
  intros G L. assert (M : forall i s, (i < n)%nat -> (s < k)%nat -> mu i s <= 1).
  { intros i s Hi Hs. rewrite <- (lpo_one _ _ _ _ _ L i Hi). apply (sumn_term_le k (mu i) s); [|exact Hs].
    intros t Ht. apply (lpo_mu _ _ _ _ _ L); assumption. }
  split; [exact M|]. intros e s t He Hs Ht. destruct (graph_edges_nth _ _ _ G He) as [Ha _].
  eapply Qcle_trans; [|apply (M _ s Ha Hs)]. rewrite <- (lpo_fst _ _ _ _ _ L e s He Hs).
  apply (sumn_term_le k (fun t => nu e s t) t); [|exact Ht]. intros t' Ht'. apply (lpo_nu _ _ _ _ _ L); assumption.
Qed.
Lemma marginal_score_bounded n k edges U P mu nu : graph_edges n edges -> local_polytope n k edges mu nu ->
  marginal_score n k edges U P mu nu <=
    sumn n (fun i => sumn k (fun s => Qcmax (U i s) (- U i s))) +
    sumn (length edges) (fun e => sumn k (fun s => sumn k (fun t => Qcmax (P e s t) (- P e s t)))).
Proof.
  intros G L. destruct (polytope_le_one n k edges mu nu G L) as [M1 M2]. unfold marginal_score.
  apply Qcplus_le_compat; apply sumn_le.
  - intros i Hi. apply sumn_le. intros s Hs. apply le_abs; [apply (lpo_mu _ _ _ _ _ L)|apply M1]; assumption.
  - intros e He. apply sumn_le. intros s Hs. apply sumn_le. intros t Ht. apply le_abs; [apply (lpo_nu _ _ _ _ _ L)|apply M2]; assumption.
Qed.
Lemma lp_optimum_exists U p edges n k : mat_ok U -> mrows U = n -> mcols U = k -> (0 < n)%nat -> (0 < k)%nat ->
  graph_edges n edges -> pw_ok p -> pw_shape p (length edges) k ->
  exists pws pb x, validate_params U p (length edges) = Ok (k, pws) /\
    lp_build (mat_neg U) edges (map (map (map Qcopp)) pws) = Ok pb /\ optimal pb x.
Proof.
  intros HU Hr Hc Hn Hk G Hpo Hp.
  destruct (lp_problem_ok U p edges n k HU Hr Hc Hn Hk G Hpo Hp) as (pws & pb & EV & EB & _ & FI & OB & LB).
  destruct (LB (repeat 0%nat n)) as (x0 & F0 & _).
  { split; [apply repeat_length|]. apply Forall_forall. intros s Hs. apply repeat_spec in Hs. lia. }
  destruct (lp_attained pb x0 (- (sumn n (fun i => sumn k (fun s => Qcmax (mget U i s) (- mget U i s))) +
    sumn (length edges) (fun e => sumn k (fun s => sumn k (fun t => Qcmax (pw_table p e s t) (- pw_table p e s t)))))) F0) as (x & Ox).
  { intros x Fx. rewrite (OB x Fx). apply FI in Fx. assert (B := marginal_score_bounded n k edges (mget U) (pw_table p) _ _ G (proj2 Fx)).
    apply Qcopp_le_compat. exact B. }
  exists pws, pb, x. auto.
Qed.
(** so the relaxation has one *)
Lemma relaxed_optimum_exists n k edges U P : graph_edges n edges -> (0 < n)%nat -> (0 < k)%nat ->
  exists mu nu, relaxed_optimum n k edges U P mu nu.
Proof.
  intros G Hn Hk.
  set (Um := mtab n k U). set (p := Pw3 (length edges) k k (map (fun e => tab2 k k (P e)) (seq 0 (length edges)))).
  assert (Hp : pw_shape p (length edges) k) by (cbn; rewrite map_length, seq_length; auto).
  assert (Hpo : pw_ok p).
  { cbn [pw_ok p]. split; [rewrite map_length, seq_length; reflexivity|]. apply Forall_forall. intros a Ha. apply in_map_iff in Ha.
    destruct Ha as (e & <- & _). apply mtab_ok. }
  destruct (lp_problem_ok Um p edges n k (mtab_ok _ _ _) eq_refl eq_refl Hn Hk G Hpo Hp) as (pws & pb & EV & EB & _ & FI & OB & LB).
  destruct (lp_optimum_exists Um p edges n k (mtab_ok _ _ _) eq_refl eq_refl Hn Hk G Hpo Hp) as (pws' & pb' & x & EV' & EB' & Fx & Ox).
  rewrite EV in EV'. injection EV' as <-. rewrite EB in EB'. injection EB' as <-.
  assert (EX : forall mu nu, marginal_score n k edges U P mu nu = marginal_score n k edges (mget Um) (pw_table p) mu nu).
  { intros mu nu. apply marginal_score_ext; auto.
    - intros i s Hi Hs. unfold Um. rewrite mget_mtab by assumption. reflexivity.
    - intros e s t He Hs Ht. cbn [pw_table p].
      rewrite (nth_indep _ [] (tab2 k k (P 0%nat))) by (rewrite map_length, seq_length; exact He).
      rewrite (map_nth (fun e => tab2 k k (P e)) (seq 0 (length edges)) 0%nat e), seq_nth by exact He.
      cbn [Nat.add]. rewrite get2_tab2 by assumption. reflexivity. }
  exists (var_mu k x), (var_nu n k x). split; [apply FI, Fx|]. intros mu nu L. rewrite !EX.
  set (x' := tab1 (n * k) (fun j => mu (j / k)%nat (j mod k)%nat) ++
             tab1 (length edges * (k * k)) (fun j => nu (j / (k * k))%nat ((j mod (k * k)) / k)%nat (j mod k)%nat)).
  assert (GM : forall i s, (i < n)%nat -> (s < k)%nat -> mu i s = var_mu k x' i s).
  { intros i s Hi Hs. unfold var_mu, x', get1. rewrite app_nth1 by (rewrite tab1_length; nia). fold (get1 (tab1 (n * k) (fun j => mu (j / k)%nat (j mod k)%nat)) (i * k + s)).
    rewrite get1_tab1 by nia. destruct (div_mod_pair k i s Hs) as [-> ->]. reflexivity. }
  assert (GN : forall e s t, (e < length edges)%nat -> (s < k)%nat -> (t < k)%nat -> nu e s t = var_nu n k x' e s t).
  { intros e s t He Hs Ht. unfold var_nu, x', get1. rewrite app_nth2 by (rewrite tab1_length; lia). rewrite tab1_length.
    replace (n * k + (e * (k * k) + (s * k + t)) - n * k)%nat with (e * (k * k) + (s * k + t))%nat by lia.
    match goal with |- _ = nth ?j ?l 0 => change (nth j l 0) with (get1 l j) end.
    assert (Hst : (s * k + t < k * k)%nat) by nia. rewrite get1_tab1 by nia.
    destruct (div_mod_pair (k * k) e (s * k + t) Hst) as [-> ->].
    replace (e * (k * k) + (s * k + t))%nat with ((e * k + s) * k + t)%nat by ring.
    destruct (div_mod_pair k (e * k + s) t Ht) as [_ ->]. destruct (div_mod_pair k s t Ht) as [-> _]. reflexivity. }
  assert (Fx' : feasible pb x').
  { apply FI. split; [unfold x'; rewrite app_length, !tab1_length; reflexivity|].
    apply (local_polytope_ext n k edges mu _ nu _ G GM GN L). }
  assert (O := Ox x' Fx'). rewrite (OB x Fx), (OB x' Fx') in O.
  rewrite (marginal_score_ext n k edges (mget Um) (mget Um) (pw_table p) (pw_table p) mu (var_mu k x') nu (var_nu n k x')) by auto.
  revert O. generalize (marginal_score n k edges (mget Um) (pw_table p) (var_mu k x') (var_nu n k x')).
  generalize (marginal_score n k edges (mget Um) (pw_table p) (var_mu k x) (var_nu n k x)). intros; qclra.
Qed.

(** ** 'lp' *)
Lemma lp_marginals_shaped solve U p edges um pm e n k : mrows U = n -> mcols U = k ->
  inference_lp solve U p edges true = Ok (Marginals um pm, e) -> shaped um n k /\ shaped pm (length edges) (k * k).
Proof.
  intros Hr Hc. unfold inference_lp. destruct (validate_params U p (length edges)) as [[k' pws]|]; [|discriminate]. cbn [bind].
  unfold lp_general_graph. change (mcols (mat_neg U)) with (mcols U). change (mrows (mat_neg U)) with (mrows U). rewrite Hr, Hc.
  destruct (ensure (k =? k')%nat ValueError); [|discriminate]. cbn [bind].
  destruct (ensure (k' =? k')%nat ValueError); [|discriminate]. cbn [bind].
  destruct (ensure (length edges =? length edges)%nat ValueError); [|discriminate]. cbn [bind].
  destruct (lp_build _ _ _) as [pb|]; [|discriminate]. cbn [bind].
  destruct (solve pb) as [x|]; [|discriminate]. cbn [bind].
  destruct (Nat.eq_dec (length (firstn (n * k) x)) (n * k)) as [E1|E1]; [|rewrite reshape_err by exact E1; discriminate].
  rewrite reshape_ok by exact E1. cbn [bind].
  destruct (Nat.eq_dec (length (skipn (n * k) x)) (length edges * (k * k))) as [E2|E2]; [|rewrite reshape_err by exact E2; discriminate].
  rewrite reshape_ok by exact E2. cbn [bind].
  match goal with |- context [ensure ?c AssertionError] => destruct (ensure c AssertionError); [|discriminate] end. cbn [bind].
  match goal with |- context [ensure ?c AssertionError] => destruct (ensure c AssertionError); [|discriminate] end. cbn [bind].
  intro H. assert (H1 : Marginals (mtab n k (fun i j => get1 (firstn (n * k) x) (i * k + j)))
     (mtab (length edges) (k * k) (fun i j => get1 (skipn (n * k) x) (i * (k * k) + j))) = Marginals um pm) by congruence.
  assert (H2 : um = mtab n k (fun i j => get1 (firstn (n * k) x) (i * k + j))) by congruence.
  assert (H3 : pm = mtab (length edges) (k * k) (fun i j => get1 (skipn (n * k) x) (i * (k * k) + j))) by congruence.
  rewrite H2, H3. repeat split; apply mtab_ok.
Qed.
Lemma lp_relaxed b U m edges n k : finds_optima (b_lp b) -> graph_edges n edges -> (0 < n)%nat ->
  shaped U n k -> shaped m k k -> (0 < k)%nat ->
  exists um pm e, inference_lp (b_lp b) U (Pw2 m) edges true = Ok (Marginals um pm, e) /\
    best_relaxed n k edges (mget U) (fun _ => mget m) (RMarginals um pm).
Proof.
  intros HF G Hn (OU & RU & CU) (OM & RM & CM) Hk.
  destruct (lp_optimum_exists U (Pw2 m) edges n k OU RU CU Hn Hk G OM (conj RM CM)) as (pws & pb & x0 & EV & EB & O0).
  destruct (HF pb (ex_intro _ x0 O0)) as (x & ES & Ox).
  destruct (inference_lp_ok (b_lp b) U (Pw2 m) edges n k pws pb x true OU RU CU Hn Hk G OM (conj RM CM) EV EB ES Ox)
    as (a & e & E & _ & um & pm & -> & R1 & C1 & R2 & C2 & L & SV & UB).
  destruct (lp_marginals_shaped _ _ _ _ _ _ _ n k RU CU E) as [S1 S2].
  exists um, pm, e. split; [exact E|]. cbn [best_relaxed]. split; [exact S1|]. split; [exact S2|]. split; [exact L|].
  intros mu nu Lp. change (fun _ : nat => mget m) with (pw_table (Pw2 m)). unfold pair_of. rewrite SV. apply UB, Lp.
Qed.
Lemma lp_solves b n edges : finds_optima (b_lp b) -> graph_edges n edges -> (0 < n)%nat -> solves_relaxation b (Name "lp") n edges.
Proof.
  intros HF G Hn U m k SU SM Hk. destruct (lp_relaxed b U m edges n k HF G Hn SU SM Hk) as (um & pm & e & E & B).
  exists (RMarginals um pm), None. split; [|exact B]. cbn. rewrite E. reflexivity.
Qed.

(** ** 'ad3' *)
Lemma relaxed_optimum_ext n k edges U P mu mu' nu nu' : graph_edges n edges ->
  (forall i s, (i < n)%nat -> (s < k)%nat -> mu i s = mu' i s) ->
  (forall e s t, (e < length edges)%nat -> (s < k)%nat -> (t < k)%nat -> nu e s t = nu' e s t) ->
  relaxed_optimum n k edges U P mu nu -> relaxed_optimum n k edges U P mu' nu'.
Proof.
  intros G H1 H2 [L M]. split; [apply (local_polytope_ext n k edges mu _ nu _ G H1 H2 L)|]. intros a c Lac.
  rewrite <- (marginal_score_ext n k edges U U P P mu mu' nu nu') by auto. apply M, Lac.
Qed.
Lemma validate_shared U m (edges : list (nat * nat)) k : mcols U = k -> shaped m k k -> validate_params U (Pw2 m) (length edges) = Ok (k, repeat (mdat m) (length edges)).
Proof.
  intros C (OM & RM & CM). unfold validate_params. rewrite RM, CM, C, !Nat.eqb_refl. reflexivity.
Qed.
Lemma ad3_solves_relaxation b lib n edges : b_ad3 b = Some lib -> graph_edges n edges -> ad3_solves lib n edges ->
  solves_relaxation b (Name "ad3") n edges.
Proof.
  intros Hb G HA U m k SU SM Hk. destruct (HA U m k SU SM Hk) as (um & pm & energy & st & EL & S1 & S2 & RO & HI).
  assert (SU' := SU). assert (SM' := SM). destruct SU' as (OU & RU & CU).
  assert (EV := validate_shared U m edges k CU SM).
  assert (ED : forall r, single_answer (um, pm, energy, st) true (Some (mrows U, mcols U)) = Ok (r, - energy) ->
    inference_dispatch b (Single U (Pw2 m) edges) (Name "ad3") false [("relaxed"%string, VBool true)] = Ok (r, None)).
  { intros r E. change (with_energy false (inference_ad3 b (Single U (Pw2 m) edges) true (VBool false) false) = Ok (r, None)). unfold inference_ad3. rewrite Hb. cbn [imported bind]. rewrite EV. cbn [bind snd]. rewrite EL. cbn [bind].
    rewrite E. reflexivity. }
  destruct (not_integral st) eqn:NI.
  - destruct S1 as (O1 & R1 & C1). 
    exists (RMarginals (mtab n k (fun i j => get1 (ravel um) (i * k + j))) pm), None. split.
    + apply ED. unfold single_answer. rewrite NI. cbn [andb]. rewrite RU, CU.
      rewrite reshape_ok by (apply (ravel_length um n k); repeat split; assumption || apply O1). reflexivity.
    + cbn [best_relaxed]. split; [repeat split; apply mtab_ok|]. split; [exact S2|].
      apply (relaxed_optimum_ext n k edges _ _ (mget um) _ (pair_of k pm) _ G); [|auto|exact RO].
      intros i s Hi Hs. rewrite mget_mtab by assumption. symmetry. apply (ravel_get um n k); [repeat split; assumption || apply O1| |]; assumption.
  - destruct S1 as (O1 & R1 & C1). destruct (argmax_rows_ok um n k R1 C1 Hk) as (y & EA & HY & HM).
    exists (RLabels y), None. split.
    + apply ED. unfold single_answer. rewrite NI. cbn [andb]. rewrite EA. reflexivity.
    + cbn [best_relaxed]. split; [exact HY|].
      assert (OH := integral_decode n k edges (mget um) (pair_of k pm) y Hk (proj1 RO) (HI eq_refl) HY HM).
      assert (HL : forall i, (i < n)%nat -> (lab y i < k)%nat) by (intros i Hi; apply (lab_lt n k y i HY Hi)).
      apply (relaxed_optimum_ext n k edges _ _ (mget um) _ (pair_of k pm) _ G OH); [|exact RO].
      apply (one_hot_forced n k edges (mget um) (pair_of k pm) (lab y) G HL (proj1 RO) OH).
Qed.

(** ** rounding: a wrong label has at most half of the mass on the true one *)
Lemma rounding_loss n k cw edges um pm y y' : (0 < k)%nat -> shaped um n k -> local_polytope n k edges (mget um) (pair_of k pm) ->
  (forall s, (s < k)%nat -> 0 <= get1 cw s) -> labelling n k y -> argmax_rows um = Ok y' ->
  labelling n k y' /\ hamming n (get1 cw) (lab y) (lab y') <= (1 + 1) * relaxed_loss (get1 cw) y (mget um).
Proof.
  intros Hk (_ & R & C) L Hc HY EA. destruct (argmax_rows_ok um n k R C Hk) as (y2 & EA2 & HY2 & HM).
  rewrite EA in EA2. injection EA2 as <-. split; [exact HY2|]. unfold relaxed_loss, hamming. rewrite (proj1 HY), <- sumn_mult_l.
  apply sumn_le. intros i Hi. assert (HL := lab_lt n k y i HY Hi). assert (HL' := lab_lt n k y' i HY2 Hi).
  assert (P := Hc _ HL). assert (LE : mget um i (lab y i) <= 1).
  { rewrite <- (lpo_one _ _ _ _ _ L i Hi). apply (sumn_term_le k (mget um i)); [|exact HL]. intros t Ht. apply (lpo_mu _ _ _ _ _ L); assumption. }
  destruct (Nat.eqb_spec (lab y i) (lab y' i)) as [E|E].
  - replace ((1 + 1) * (get1 cw (lab y i) * (1 - mget um i (lab y i)))) with ((get1 cw (lab y i)) * ((1 - mget um i (lab y i)) + (1 - mget um i (lab y i)))) by ring.
    apply Qcmult_nonneg; [exact P|qclra].
  - assert (TWO : mget um i (lab y i) + mget um i (lab y' i) <= 1).
    { rewrite <- (lpo_one _ _ _ _ _ L i Hi).
      rewrite <- (sumn_pick k (lab y i) (mget um i) HL), <- (sumn_pick k (lab y' i) (mget um i) HL') at 1.
      rewrite <- sumn_plus. apply sumn_le. intros t Ht. assert (N := lpo_mu _ _ _ _ _ L i t Hi Ht).
      destruct (Nat.eqb_spec t (lab y i)), (Nat.eqb_spec t (lab y' i)); unfold ind; try congruence.
      + replace (1 * mget um i t + 0 * mget um i t) with (mget um i t) by ring. apply Qcle_refl.
      + replace (0 * mget um i t + 1 * mget um i t) with (mget um i t) by ring. apply Qcle_refl.
      + replace (0 * mget um i t + 0 * mget um i t) with 0 by ring. exact N. }
    assert (HALF := HM i (lab y i) Hi HL).
    assert (D : 0 <= get1 cw (lab y i) * (1 - (mget um i (lab y i) + mget um i (lab y i)))) by (apply Qcmult_nonneg; [exact P|qclra]).
    replace ((1 + 1) * (get1 cw (lab y i) * (1 - mget um i (lab y i)))) with
      (get1 cw (lab y i) + get1 cw (lab y i) * (1 - (mget um i (lab y i) + mget um i (lab y i)))) by ring.
    revert D. generalize (get1 cw (lab y i) * (1 - (mget um i (lab y i) + mget um i (lab y i)))). intros; qclra.
Qed.

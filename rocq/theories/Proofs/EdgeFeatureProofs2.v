From Verif Require Import Model.EdgeFeature Spec.EdgeSpec Spec.LossSpec Spec.SolverSpec
  Proofs.Arrays Proofs.SymProofs Proofs.EnergyProofs Proofs.GraphCRFProofs Proofs.LossProofs Proofs.CRFProofs
  Proofs.EdgeFeatureProofs.

(** what the statements assume about an instance *)
Record valid_ex (g : ef_crf) (x : ef_x) : Prop := {
  ve_decl : ef_check_declared g = Ok tt;
  ve_features : mcols (ex_features x) = ef_features g;
  ve_efeatures : mcols (ex_edge_features x) = ef_edge_features g;
  ve_rows : mrows (ex_edge_features x) = length (ex_edges x);
  ve_edges : graph_edges (mrows (ex_features x)) (ex_edges x) }.

Lemma ef_check_x_ok g x : valid_ex g x -> ef_check_x g x = Ok tt.
Proof.
  intros [_ H1 H2 H3 _]. unfold ef_check_x. rewrite H1, Nat.eqb_refl. cbn [ensure bind].
  rewrite H3, Nat.eqb_refl. cbn [ensure bind]. rewrite H2, Nat.eqb_refl. reflexivity.
Qed.
Lemma ef_check_x_inv g x : ef_check_x g x = Ok tt ->
  mcols (ex_features x) = ef_features g /\ mrows (ex_edge_features x) = length (ex_edges x) /\
  mcols (ex_edge_features x) = ef_edge_features g.
Proof.
  unfold ef_check_x. intro H.
  destruct (Nat.eqb_spec (mcols (ex_features x)) (ef_features g)) as [E1|]; [|discriminate H]. cbn [ensure bind] in H.
  destruct (Nat.eqb_spec (length (ex_edges x)) (mrows (ex_edge_features x))) as [E2|]; [|discriminate H]. cbn [ensure bind] in H.
  destruct (Nat.eqb_spec (mcols (ex_edge_features x)) (ef_edge_features g)) as [E3|]; [|discriminate H]. auto.
Qed.

Lemma ef_unary_ok g x w : valid_ex g x -> length w = ef_size g ->
  exists U, ef_unary g x w = Ok U /\ mat_ok U /\ mrows U = mrows (ex_features x) /\ mcols U = ef_states g /\
    forall i s, (i < mrows (ex_features x))%nat -> (s < ef_states g)%nat ->
      mget U i s = unary_score (ef_features g) w (mget (ex_features x) i) s.
Proof.
  intros Hx Hw. unfold ef_unary. rewrite check_size_w_ok by exact Hw. rewrite ef_check_x_ok by exact Hx. cbn [bind].
  apply ef_unary_core_ok; [apply Hx|exact Hw].
Qed.
Lemma ef_pairwise_ok g x w : valid_ex g x -> (0 < ef_edge_features g)%nat -> length w = ef_size g ->
  exists d, ef_pairwise g x w = Ok (Pw3 (length (ex_edges x)) (ef_states g) (ef_states g) d) /\ length d = length (ex_edges x) /\
    forall e s t, (e < length (ex_edges x))%nat -> (s < ef_states g)%nat -> (t < ef_states g)%nat ->
      get2 (nth e d []) s t = edge_score (ef_edge_features g) (ef_states g) (ef_features g) w (mget (ex_edge_features x) e) s t.
Proof.
  intros Hx HD Hw. unfold ef_pairwise. rewrite check_size_w_ok by exact Hw. rewrite ef_check_x_ok by exact Hx. cbn [bind].
  destruct (ef_pairwise_core_ok g (ex_edge_features x) w (ve_efeatures g x Hx) HD Hw) as [d [E [L G]]].
  rewrite (ve_rows g x Hx) in *. exists d. auto.
Qed.

Lemma eff_score_respects g w feat s t : respects_symmetry (ef_states g) (ef_features g) (ef_sym g) (ef_anti g) w ->
  (s < ef_states g)%nat -> (t < ef_states g)%nat ->
  eff_score g w feat s t = edge_score (ef_edge_features g) (ef_states g) (ef_features g) w feat s t.
Proof.
  intros [Hs Ha] Hss Htt. unfold eff_score, edge_score. apply sumn_ext. intros f Hf. f_equal. unfold effective_weight.
  destruct (existsb (Nat.eqb f) (ef_sym g)) eqn:E.
  { apply existsb_eqb_In in E. rewrite (Hs f t s) by assumption. field. discriminate. }
  destruct (existsb (Nat.eqb f) (ef_anti g)) eqn:E'; [|reflexivity].
  apply existsb_eqb_In in E'. rewrite (Ha f t s) by assumption. field. discriminate.
Qed.

Lemma ef_score_general : forall (g : ef_crf) (x : ef_x) (w : list Qc) (y : list nat),
  ef_check_declared g = Ok tt ->
  mcols (ex_features x) = ef_features g -> mcols (ex_edge_features x) = ef_edge_features g ->
  mrows (ex_edge_features x) = length (ex_edges x) ->
  graph_edges (mrows (ex_features x)) (ex_edges x) ->
  length w = ef_size g -> labelling (mrows (ex_features x)) (ef_states g) y ->
  exists psi, ef_joint_feature g x (EDiscrete y) = Ok psi /\ length psi = ef_size g /\
    dot w psi = score (mrows (ex_features x)) (ex_edges x)
      (fun i s => unary_score (ef_features g) w (mget (ex_features x) i) s)
      (fun e s t => sumn (ef_edge_features g) (fun f => mget (ex_edge_features x) e f *
         effective_weight (ef_states g) (ef_features g) (ef_sym g) (ef_anti g) w f s t)) (lab y).
Proof.
  intros g x w y Hd H1 H2 H3 H4 Hw Hy. assert (Hx : valid_ex g x) by (constructor; assumption).
  unfold ef_joint_feature. rewrite ef_check_x_ok by exact Hx. cbn [bind].
  destruct (ef_core_discrete g (ex_features x) (ex_edges x) (ex_edge_features x) y w) as [psi [E1 [E2 [_ E3]]]]; auto.
  { apply ef_check_declared_ok, Hd. }
  exists psi. auto.
Qed.

Lemma ef_score_linear : forall (g : ef_crf) (x : ef_x) (w : list Qc) (y : list nat),
  ef_check_declared g = Ok tt -> (0 < ef_edge_features g)%nat ->
  mcols (ex_features x) = ef_features g -> mcols (ex_edge_features x) = ef_edge_features g ->
  mrows (ex_edge_features x) = length (ex_edges x) ->
  graph_edges (mrows (ex_features x)) (ex_edges x) ->
  length w = ef_size g -> labelling (mrows (ex_features x)) (ef_states g) y ->
  respects_symmetry (ef_states g) (ef_features g) (ef_sym g) (ef_anti g) w ->
  exists U P psi,
    ef_unary g x w = Ok U /\ ef_pairwise g x w = Ok P /\ ef_joint_feature g x (EDiscrete y) = Ok psi /\
    length psi = ef_size g /\
    compute_energy U P (ex_edges x) y = Ok (dot w psi) /\
    dot w psi = score (mrows (ex_features x)) (ex_edges x)
      (fun i s => unary_score (ef_features g) w (mget (ex_features x) i) s)
      (fun e s t => edge_score (ef_edge_features g) (ef_states g) (ef_features g) w (mget (ex_edge_features x) e) s t) (lab y).
Proof.
  intros g x w y Hd HD H1 H2 H3 H4 Hw Hy Hr. assert (Hx : valid_ex g x) by (constructor; assumption).
  destruct (ef_score_general g x w y) as [psi [E1 [E2 E3]]]; auto.
  destruct (ef_unary_ok g x w Hx Hw) as [U [EU [OU [RU [CU GU]]]]].
  destruct (ef_pairwise_ok g x w Hx HD Hw) as [d [EP [LP GP]]].
  assert (E4 : dot w psi = score (mrows (ex_features x)) (ex_edges x)
      (fun i s => unary_score (ef_features g) w (mget (ex_features x) i) s)
      (fun e s t => edge_score (ef_edge_features g) (ef_states g) (ef_features g) w (mget (ex_edge_features x) e) s t) (lab y)).
  { rewrite E3. apply score_ext; auto. intros e a b He Ha Hb.
    apply (eff_score_respects g w (mget (ex_edge_features x) e)); auto; eapply labelling_lt; eauto. }
  eexists. eexists. exists psi. repeat (split; [eassumption|]). split; [|exact E4].
  rewrite (compute_energy_pw3 U d (ex_edges x) y (mrows (ex_features x)) (ef_states g)) by assumption.
  f_equal. rewrite E4. apply score_ext; auto.
  - intros i Hi. apply GU; auto. eapply labelling_lt; eauto.
  - intros e a b He Ha Hb. apply GP; auto; eapply labelling_lt; eauto.
Qed.

Lemma ef_relaxed_linear : forall (g : ef_crf) (x : ef_x) (w um : list Qc) (pw : mat),
  ef_check_declared g = Ok tt -> (0 < ef_edge_features g)%nat ->
  mcols (ex_features x) = ef_features g -> mcols (ex_edge_features x) = ef_edge_features g ->
  mrows (ex_edge_features x) = length (ex_edges x) ->
  graph_edges (mrows (ex_features x)) (ex_edges x) ->
  length w = ef_size g -> length um = (mrows (ex_features x) * ef_states g)%nat ->
  mrows pw = length (ex_edges x) -> mcols pw = (ef_states g * ef_states g)%nat ->
  respects_symmetry (ef_states g) (ef_features g) (ef_sym g) (ef_anti g) w ->
  exists U n0 n1 n2 d psi,
    ef_unary g x w = Ok U /\ ef_pairwise g x w = Ok (Pw3 n0 n1 n2 d) /\
    ef_joint_feature g x (ERelaxed um pw) = Ok psi /\ length psi = ef_size g /\
    dot w psi =
      sumn (mrows (ex_features x)) (fun i => sumn (ef_states g) (fun s => get1 um (i * ef_states g + s) * mget U i s)) +
      sumn (length (ex_edges x)) (fun e => sumn (ef_states g) (fun s => sumn (ef_states g) (fun t =>
        mget pw e (s * ef_states g + t) * get2 (nth e d []) s t))).
Proof.
  intros g x w um pw Hd HD H1 H2 H3 H4 Hw Hum Hpr Hpc Hr. assert (Hx : valid_ex g x) by (constructor; assumption).
  destruct (ef_unary_ok g x w Hx Hw) as [U [EU [OU [RU [CU GU]]]]].
  destruct (ef_pairwise_ok g x w Hx HD Hw) as [d [EP [LP GP]]].
  destruct (ef_core_dot g (ex_features x) (ex_edges x) (ex_edge_features x) (ERelaxed um pw)
    (mtab (mrows (ex_features x)) (ef_states g) (fun i j => get1 um (i * ef_states g + j))) pw w) as [psi [E1 [E2 [_ [_ E3]]]]]; auto.
  { simpl. rewrite reshape_ok by exact Hum. reflexivity. }
  { apply ef_check_declared_ok, Hd. }
  { congruence. }
  exists U. do 4 eexists. exists psi. split; [exact EU|]. split; [exact EP|].
  unfold ef_joint_feature. rewrite ef_check_x_ok by exact Hx. cbn [bind]. split; [exact E1|]. split; [exact E2|].
  rewrite E3, H3. f_equal.
  - apply sumn_ext. intros i Hi. apply sumn_ext. intros s Hs. rewrite mget_mtab by assumption. rewrite GU by assumption. reflexivity.
  - apply sumn_ext. intros e He. apply sumn_ext. intros s Hs. apply sumn_ext. intros t Ht.
    rewrite GP by assumption. rewrite eff_score_respects by assumption. reflexivity.
Qed.

(** ** weights a learner can reach *)
Lemma respects_vzero S F sym anti n : respects_symmetry S F sym anti (vzero n).
Proof.
  split; intros; unfold edge_weight; rewrite !get1_vzero; [reflexivity|ring].
Qed.
Lemma respects_lincomb S F sym anti n l :
  (forall c v, In (c, v) l -> length v = n /\ respects_symmetry S F sym anti v) ->
  length (lincomb n l) = n /\ respects_symmetry S F sym anti (lincomb n l).
Proof.
  induction l as [|[c v] l IH]; intro H.
  - simpl. rewrite vzero_length. split; [reflexivity|apply respects_vzero].
  - destruct IH as [IL [IS IA]]. { intros c' v' Hin. apply (H c'). simpl; auto. }
    destruct (H c v (or_introl eq_refl)) as [HL [HS HA]].
    cbn [lincomb fold_right fst snd]. fold (lincomb n l).
    assert (L : length (vscale c v) = length (lincomb n l)) by (rewrite vscale_length; congruence).
    split; [rewrite vadd_length, vscale_length by exact L; exact HL|].
    split; intros f s t Hf Hs Ht; unfold edge_weight in *; rewrite !get1_vadd, !get1_vscale by exact L.
    + rewrite (HS f s t), (IS f s t) by assumption. reflexivity.
    + rewrite (HA f s t), (IA f s t) by assumption. ring.
Qed.

Lemma ef_joint_feature_respects g x y psi : ef_check_declared g = Ok tt ->
  match y with ERelaxed _ pw => mcols pw = (ef_states g * ef_states g)%nat | EDiscrete _ => True end ->
  ef_joint_feature g x y = Ok psi ->
  length psi = ef_size g /\ respects_symmetry (ef_states g) (ef_features g) (ef_sym g) (ef_anti g) psi.
Proof.
  intros Hd Hy E. unfold ef_joint_feature in E. apply bind_ok in E. destruct E as [[] [Ec E]].
  apply ef_check_x_inv in Ec. destruct Ec as [H1 [H2 H3]].
  assert (E0 := E). unfold ef_joint_feature_core in E0. apply bind_ok in E0. destruct E0 as [[um pw] [Em E0]].
  apply bind_ok in E0. destruct E0 as [pw1 [Ep _]].
  assert (Hp : mrows pw = mrows (ex_edge_features x)).
  { unfold mat_mul in Ep. destruct (Nat.eqb_spec (mcols (mat_T (ex_edge_features x))) (mrows pw)) as [K|]; [|discriminate Ep].
    simpl in K. congruence. }
  assert (Hum : mrows um = mrows (ex_features x) /\ mcols um = ef_states g /\ mcols pw = (ef_states g * ef_states g)%nat).
  { destruct y as [yl|u p]; simpl in Em.
    - destruct (Nat.eqb_spec (length yl) (mrows (ex_features x))) as [K|]; [|discriminate Em]. cbn [ensure bind] in Em.
      apply bind_ok in Em. destruct Em as [um' [Eu Em]]. apply bind_ok in Em. destruct Em as [y1 [_ Em]].
      apply bind_ok in Em. destruct Em as [y0 [_ Em]]. apply bind_ok in Em. destruct Em as [pw' [Ew Em]].
      injection Em as <- <-. unfold one_hot in Eu, Ew. destruct (forallb _ yl) in Eu; [|discriminate Eu].
      destruct (forallb _ _) in Ew; [|discriminate Ew]. injection Eu as <-. injection Ew as <-. simpl. auto.
    - apply bind_ok in Em. destruct Em as [um' [Eu Em]]. injection Em as <- <-. unfold reshape in Eu.
      destruct (_ =? _)%nat in Eu; [|discriminate Eu]. injection Eu as <-. simpl. auto. }
  destruct Hum as [U1 [U2 U3]].
  destruct (ef_core_dot g (ex_features x) (ex_edges x) (ex_edge_features x) y um pw (vzero (ef_size g)) Em) as [psi' [E1 [E2 [E3 [E4 _]]]]]; auto.
  { apply ef_check_declared_ok, Hd. } { apply vzero_length. }
  rewrite E in E1. injection E1 as <-. split; [exact E2|]. split; assumption.
Qed.

Lemma ef_span : forall (g : ef_crf) (samples : list (Qc * (ef_x * ef_label * list Qc))),
  ef_check_declared g = Ok tt ->
  (forall c x y psi, In (c, (x, y, psi)) samples ->
     ef_joint_feature g x y = Ok psi /\
     match y with ERelaxed _ pw => mcols pw = (ef_states g * ef_states g)%nat | EDiscrete _ => True end) ->
  length (lincomb (ef_size g) (map (fun p => (fst p, snd (snd p))) samples)) = ef_size g /\
  respects_symmetry (ef_states g) (ef_features g) (ef_sym g) (ef_anti g)
    (lincomb (ef_size g) (map (fun p => (fst p, snd (snd p))) samples)).
Proof.
  intros g samples Hd H. apply respects_lincomb. intros c v Hin. apply in_map_iff in Hin.
  destruct Hin as [[c' [[x y] psi]] [E Hin]]. simpl in E. injection E as -> ->.
  destruct (H c x y v Hin) as [H1 H2]. eapply ef_joint_feature_respects; eauto.
Qed.

Lemma ef_rejects : forall (g : ef_crf) (x : ef_x) (w : list Qc) (y : ef_label),
  (ef_edge_features g = 0%nat -> ef_pairwise g x w = Err ValueError) /\
  (length w <> ef_size g -> ef_unary g x w = Err ValueError /\ ef_pairwise g x w = Err ValueError) /\
  ((mcols (ex_features x) <> ef_features g \/ mrows (ex_edge_features x) <> length (ex_edges x) \/
    mcols (ex_edge_features x) <> ef_edge_features g) ->
     ef_joint_feature g x y = Err ValueError /\ ef_unary g x w = Err ValueError /\ ef_pairwise g x w = Err ValueError).
Proof.
  intros g x w y.
  assert (Ew : check_size_w (ef_size g) w = Ok tt \/ check_size_w (ef_size g) w = Err ValueError).
  { unfold check_size_w. destruct (_ =? _)%nat; auto. }
  assert (Ex : ef_check_x g x = Ok tt \/ ef_check_x g x = Err ValueError).
  { unfold ef_check_x. destruct (_ =? _)%nat; [|right; reflexivity]. cbn [ensure bind].
    destruct (_ =? _)%nat; [|right; reflexivity]. cbn [ensure bind]. destruct (_ =? _)%nat; auto. }
  split; [|split].
  - intro H. unfold ef_pairwise. destruct Ew as [->| ->]; [|reflexivity]. cbn [bind]. destruct Ex as [->| ->]; [|reflexivity].
    cbn [bind]. unfold ef_pairwise_core. rewrite H. reflexivity.
  - intro H. unfold ef_pairwise, ef_unary. rewrite check_size_w_err by exact H. auto.
  - intro H. assert (E : ef_check_x g x = Err ValueError).
    { destruct Ex as [E|E]; [|exact E]. apply ef_check_x_inv in E. exfalso. tauto. }
    unfold ef_joint_feature, ef_unary, ef_pairwise. rewrite E. split; [reflexivity|].
    destruct Ew as [->| ->]; auto.
Qed.

Lemma ef_check_declared_spec : forall (g : ef_crf),
  (ef_check_declared g = Ok tt <->
    ((forall i, In i (ef_sym g) \/ In i (ef_anti g) -> (i < ef_edge_features g)%nat) /\
     (forall i, In i (ef_sym g) -> ~ In i (ef_anti g)))) /\
  (ef_check_declared g <> Ok tt -> ef_check_declared g = Err ValueError).
Proof.
  intro g. split.
  - rewrite ef_check_declared_ok. unfold declared_ok. rewrite !Forall_forall. firstorder.
  - unfold ef_check_declared. destruct (forallb _ (ef_sym g ++ ef_anti g)); cbn [ensure bind]; [|reflexivity].
    destruct (forallb _ _); cbn [ensure]; congruence.
Qed.

(** ** inference *)
Lemma ef_loss_augmented_exact : forall (solve : solver) (g : ef_crf) (cw : list Qc) (x : ef_x) (y : list nat) (w : list Qc),
  exact_on_tables solve (mrows (ex_features x)) (ex_edges x) ->
  ef_check_declared g = Ok tt -> (0 < ef_edge_features g)%nat -> (0 < ef_states g)%nat ->
  mcols (ex_features x) = ef_features g -> mcols (ex_edge_features x) = ef_edge_features g ->
  mrows (ex_edge_features x) = length (ex_edges x) ->
  graph_edges (mrows (ex_features x)) (ex_edges x) ->
  length w = ef_size g -> length cw = ef_states g ->
  respects_symmetry (ef_states g) (ef_features g) (ef_sym g) (ef_anti g) w ->
  labelling (mrows (ex_features x)) (ef_states g) y ->
  exists yh psi l,
    ef_loss_augmented_inference solve g cw x y w = Ok yh /\
    labelling (mrows (ex_features x)) (ef_states g) yh /\
    ef_joint_feature g x (EDiscrete yh) = Ok psi /\ loss (Some cw) y yh = Ok l /\
    forall y' psi' l', labelling (mrows (ex_features x)) (ef_states g) y' ->
      ef_joint_feature g x (EDiscrete y') = Ok psi' -> loss (Some cw) y y' = Ok l' ->
      dot w psi' + l' <= dot w psi + l.
Proof.
  intros solve g cw x y w Hs Hd HD Hk H1 H2 H3 H4 Hw Hc Hr Hy. assert (Hx : valid_ex g x) by (constructor; assumption).
  destruct (ef_unary_ok g x w Hx Hw) as [U [EU [OU [RU [CU GU]]]]].
  destruct (ef_pairwise_ok g x w Hx HD Hw) as [d [EP [LP GP]]].
  destruct (loss_augment_ok U y cw _ _ RU CU Hc Hy) as [U' [EU' [OU' [RU' [CU' GU']]]]].
  destruct (Hs U' (Pw3 (length (ex_edges x)) (ef_states g) (ef_states g) d) (ef_states g)) as [yh [Ey [Hyh Hm]]]; auto.
  { simpl. auto. }
  destruct (ef_score_linear g x w yh) as [U1 [P1 [psi [F1 [F2 [F3 [F4 [_ F5]]]]]]]]; auto.
  assert (EL := loss_weighted _ _ cw y yh Hc Hy (proj1 Hyh)).
  exists yh, psi. eexists. unfold ef_loss_augmented_inference.
  rewrite check_size_w_ok by exact Hw. cbn [bind]. rewrite EU. cbn [bind]. rewrite EP. cbn [bind]. rewrite EU'. cbn [bind].
  split; [exact Ey|]. split; [exact Hyh|]. split; [exact F3|]. split; [exact EL|].
  intros y' psi' l' Hy' E' EL'. destruct (ef_score_linear g x w y') as [U2 [P2 [psi2 [K1 [K2 [K3 [K4 [_ K5]]]]]]]]; auto.
  rewrite E' in K3. injection K3 as <-.
  rewrite (loss_weighted _ _ cw y y' Hc Hy (proj1 Hy')) in EL'. injection EL' as <-.
  rewrite F5, K5.
  assert (A : forall z, labelling (mrows (ex_features x)) (ef_states g) z ->
     score (mrows (ex_features x)) (ex_edges x) (mget U') (pw_table (Pw3 (length (ex_edges x)) (ef_states g) (ef_states g) d)) (lab z) =
     score (mrows (ex_features x)) (ex_edges x)
      (fun i s => unary_score (ef_features g) w (mget (ex_features x) i) s)
      (fun e s t => edge_score (ef_edge_features g) (ef_states g) (ef_features g) w (mget (ex_edge_features x) e) s t) (lab z)
     + hamming (mrows (ex_features x)) (get1 cw) (lab y) (lab z)).
  { intros z Hz. unfold score, hamming.
    rewrite (sumn_ext _ (fun i => mget U' i (lab z i))
      (fun i => unary_score (ef_features g) w (mget (ex_features x) i) (lab z i) + if (lab y i =? lab z i)%nat then 0 else get1 cw (lab y i))).
    - rewrite sumn_plus. rewrite (sumn_ext (length (ex_edges x)) _ (fun e => edge_score (ef_edge_features g) (ef_states g) (ef_features g) w
         (mget (ex_edge_features x) e) (lab z (fst (nth e (ex_edges x) (0,0)%nat))) (lab z (snd (nth e (ex_edges x) (0,0)%nat))))).
      + ring.
      + intros e He. simpl. destruct (graph_edges_nth _ _ e H4 He). apply GP; auto; eapply labelling_lt; eauto.
    - intros i Hi. assert (lab z i < ef_states g)%nat by (eapply labelling_lt; eauto). rewrite GU' by assumption. rewrite GU by assumption. reflexivity. }
  rewrite <- !A by assumption. apply Hm. exact Hy'.
Qed.

Lemma ef_arbitrary_weights_refuted :
  exists (g : ef_crf) (x : ef_x) (w : list Qc) (y : list nat) U P psi,
    ef_check_declared g = Ok tt /\ length w = ef_size g /\
    labelling (mrows (ex_features x)) (ef_states g) y /\
    ef_unary g x w = Ok U /\ ef_pairwise g x w = Ok P /\ ef_joint_feature g x (EDiscrete y) = Ok psi /\
    compute_energy U P (ex_edges x) y <> Ok (dot w psi).
Proof.
  exists (EFCRF 2 0 1 [0%nat] []), (EFX (mat_zeros 2 0) [(0, 1)%nat] (Mat 1 1 [[1]])), [0; 1; 0; 0], [0; 1]%nat.
  do 3 eexists. split; [reflexivity|]. split; [reflexivity|]. split; [repeat constructor|].
  split; [reflexivity|]. split; [reflexivity|]. split; [reflexivity|].
  vm_compute. intro H. discriminate H.
Qed.

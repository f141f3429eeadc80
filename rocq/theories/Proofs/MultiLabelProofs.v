From Coq Require Import ZArith.
From Verif Require Import Model.MultiLabel Spec.LabelSpec Spec.LossSpec Spec.SolverSpec
  Proofs.Arrays Proofs.EnergyProofs Proofs.GraphCRFProofs Proofs.LossProofs Proofs.CRFProofs Proofs.UnstructuredProofs
  Proofs.UnstructuredProofs2.

Lemma ml_unary_ok m x w : length w = ml_size m -> length x = ml_features m ->
  exists U, ml_unary m x w = Ok U /\ mat_ok U /\ mrows U = ml_labels m /\ mcols U = 2%nat /\
    forall l s, (l < ml_labels m)%nat -> (s < 2)%nat -> mget U l s = label_unary (ml_features m) w x l s.
Proof.
  intros Hw Hx. unfold ml_unary, ml_size in *.
  rewrite reshape_ok by (rewrite firstn_length; lia). cbn [bind]. rewrite Hx, Nat.eqb_refl. cbn [ensure bind].
  eexists. split; [reflexivity|]. split; [apply mtab_ok|]. split; [reflexivity|]. split; [reflexivity|].
  intros l s Hl Hs. rewrite mget_mtab by auto. unfold label_unary.
  rewrite get1_tab1 by auto.
  assert (E : sumn (ml_features m) (fun f => get1 x f * mget (mtab (ml_labels m) (ml_features m) (fun i j => get1 (firstn (ml_labels m * ml_features m) w) (i * ml_features m + j))) l f)
     = sumn (ml_features m) (fun f => get1 w (l * ml_features m + f) * get1 x f)).
  { apply sumn_ext. intros f Hf. rewrite mget_mtab by auto. rewrite get1_firstn by nia. ring. }
  rewrite E. reflexivity.
Qed.
Lemma ml_pairwise_ok m w : length w = ml_size m ->
  exists d, ml_pairwise m w = Ok (Pw3 (length (ml_edges m)) 2 2 d) /\ length d = length (ml_edges m) /\
    forall e s t, (e < length (ml_edges m))%nat -> (s < 2)%nat -> (t < 2)%nat ->
      get2 (nth e d []) s t = label_pair (ml_labels m) (ml_features m) w e s t.
Proof.
  intros Hw. unfold ml_pairwise, ml_size in *.
  assert (HL : length (skipn (ml_labels m * ml_features m) w) = (length (ml_edges m) * 4)%nat).
  { rewrite skipn_length. lia. }
  rewrite HL, Nat.eqb_refl. eexists. split; [reflexivity|]. split. { rewrite map_length, seq_length. reflexivity. }
  intros e s t He Hs Ht. rewrite nth_map_seq by auto. rewrite get2_tab2 by auto. rewrite get1_skipn. reflexivity.
Qed.

(** ** the joint feature *)
Lemma signed_rows_length x signs : length (signed_rows x signs) = (length signs * length x)%nat.
Proof.
  unfold signed_rows. induction signs; [reflexivity|]. cbn [map concat length].
  rewrite app_length, map_length, IHsigns. lia.
Qed.
Lemma signed_rows_tab x signs : signed_rows x signs = concat (tab2 (length signs) (length x) (fun l f => get1 x f * get1 signs l)).
Proof.
  unfold signed_rows. f_equal. apply (nth_ext _ _ [] []).
  - rewrite map_length, tab2_length. reflexivity.
  - intros i Hi. rewrite map_length in Hi. rewrite (nth_map_in _ signs i 0) by auto.
    rewrite nth_tab2 by auto. apply vec_ext.
    + rewrite map_length, tab1_length. reflexivity.
    + intros j Hj. rewrite map_length in Hj. rewrite get1_tab1 by auto. unfold get1 at 1.
      rewrite (nth_map_in _ x j 0) by auto. reflexivity.
Qed.
Lemma dot_signed w x signs n : length signs = n -> length w = (n * length x)%nat ->
  dot w (signed_rows x signs) = sumn n (fun l => get1 signs l * sumn (length x) (fun f => get1 w (l * length x + f) * get1 x f)).
Proof.
  intros Hs Hw. rewrite signed_rows_tab, Hs, dot_concat_tab2 by auto.
  apply sumn_ext. intros l Hl. rewrite <- sumn_mult_l. apply sumn_ext. intros f Hf. ring.
Qed.

Lemma edge_indicators_ok n y edges : labelling n 2 y -> graph_edges n edges ->
  mapM (edge_indicator y) edges = Ok (map (fun e => tab2 2 2 (fun s t => ind ((s =? lab y (fst e)) && (t =? lab y (snd e)))%nat)) edges).
Proof.
  intros Hy He. apply mapM_ok. intros e Hin. unfold graph_edges in He. rewrite Forall_forall in He.
  destruct (He e Hin) as [H1 H2]. unfold edge_indicator. assert (Hy' := Hy). destruct Hy' as [HL HF].
  rewrite (index_ok y _ O) by congruence. cbn [bind]. rewrite (index_ok y _ O) by congruence. cbn [bind].
  assert (A := labelling_lt _ _ y (fst e) Hy H1). assert (B := labelling_lt _ _ y (snd e) Hy H2). unfold lab in *.
  apply Nat.ltb_lt in A, B. rewrite A, B. reflexivity.
Qed.
Lemma concat_indicator a b : (a < 2)%nat -> (b < 2)%nat ->
  concat (tab2 2 2 (fun s t => ind ((s =? a) && (t =? b))%nat)) = tab1 4 (fun i => ind (i =? a * 2 + b)%nat).
Proof.
  intros Ha Hb. destruct a as [|[|a]]; [| |lia]; (destruct b as [|[|b]]; [| |lia]); reflexivity.
Qed.
Lemma concat_indicators n y edges : labelling n 2 y -> graph_edges n edges ->
  concat (concat (map (fun e => tab2 2 2 (fun s t => ind ((s =? lab y (fst e)) && (t =? lab y (snd e)))%nat)) edges)) =
  concat (tab2 (length edges) 4 (fun e i => ind (i =? lab y (fst (nth e edges (0, 0)%nat)) * 2 + lab y (snd (nth e edges (0, 0)%nat)))%nat)).
Proof.
  intros Hy He. rewrite <- (flat_map_concat_map). 
  assert (G : forall (f : nat * nat -> list (list Qc)) l, concat (flat_map f l) = concat (map (fun e => concat (f e)) l)).
  { clear. intros f l. induction l; [reflexivity|]. cbn [flat_map map concat]. rewrite concat_app, IHl. reflexivity. }
  rewrite G. f_equal. apply (nth_ext _ _ [] []).
  - rewrite map_length, tab2_length. reflexivity.
  - intros i Hi. rewrite map_length in Hi. rewrite (nth_map_in _ edges i (0, 0)%nat) by auto.
    rewrite nth_tab2 by auto. unfold graph_edges in He.
    assert (HE : (fst (nth i edges (0, 0)%nat) < n)%nat /\ (snd (nth i edges (0, 0)%nat) < n)%nat).
    { rewrite Forall_forall in He. apply He, nth_In; auto. }
    apply concat_indicator; apply (labelling_lt _ _ _ _ Hy); tauto.
Qed.

Lemma dot_split w a b n : length a = n -> (n + length b = length w)%nat ->
  dot w (a ++ b) = dot (firstn n w) a + dot (skipn n w) b.
Proof.
  intros Ha Hb. rewrite <- (firstn_skipn n w) at 1. apply dot_app. rewrite firstn_length. lia.
Qed.

Lemma sign_value n y l : labelling n 2 y -> (l < n)%nat ->
  get1 (map (fun s => ofZ (2 * Z.of_nat s - 1)) y) l = if (lab y l =? 0)%nat then - (1) else 1.
Proof.
  intros Hy Hl. assert (B := labelling_lt _ _ y l Hy Hl). destruct Hy as [HL _].
  unfold get1. rewrite (nth_map_in _ y l O) by congruence. unfold lab in *.
  destruct (nth l y O) as [|[|k]]; [| |lia].
  - apply Qc_is_canon. reflexivity.
  - apply Qc_is_canon. reflexivity.
Qed.

Lemma ml_joint_ok m x y w : length x = ml_features m -> length w = ml_size m ->
  labelling (ml_labels m) 2 y -> graph_edges (ml_labels m) (ml_edges m) ->
  exists psi, ml_joint_feature m x (MDiscrete y) = Ok psi /\ length psi = ml_size m /\
    dot w psi = score (ml_labels m) (ml_edges m) (label_unary (ml_features m) w x)
                      (label_pair (ml_labels m) (ml_features m) w) (lab y).
Proof.
  intros Hx Hw Hy He. unfold ml_joint_feature. rewrite (edge_indicators_ok (ml_labels m)) by auto. cbn [bind].
  rewrite (concat_indicators (ml_labels m)) by auto.
  eexists. split; [reflexivity|]. assert (LY := proj1 Hy). unfold ml_size in *.
  assert (LS : length (signed_rows x (map (fun s => ofZ (2 * Z.of_nat s - 1)) y)) = (ml_labels m * ml_features m)%nat).
  { rewrite signed_rows_length, map_length. congruence. }
  split. { rewrite app_length, LS, concat_tab2_length. lia. }
  rewrite (dot_split w _ _ (ml_labels m * ml_features m)) by (rewrite ?LS, ?concat_tab2_length; lia).
  unfold score. f_equal.
  - rewrite (dot_signed _ x _ (ml_labels m)); [|rewrite map_length; auto|rewrite firstn_length; lia].
    apply sumn_ext. intros l Hl. rewrite (sign_value (ml_labels m)) by auto. unfold label_unary. rewrite Hx.
    assert (E : sumn (ml_features m) (fun f => get1 (firstn (ml_labels m * ml_features m) w) (l * ml_features m + f) * get1 x f) =
                sumn (ml_features m) (fun f => get1 w (l * ml_features m + f) * get1 x f)).
    { apply sumn_ext. intros f Hf. rewrite get1_firstn by nia. reflexivity. }
    rewrite E. destruct (lab y l =? 0)%nat; ring.
  - rewrite dot_concat_tab2 by (rewrite skipn_length; lia).
    apply sumn_ext. intros e He'. unfold label_pair.
    assert (HE : (fst (nth e (ml_edges m) (0, 0)%nat) < ml_labels m)%nat /\ (snd (nth e (ml_edges m) (0, 0)%nat) < ml_labels m)%nat).
    { unfold graph_edges in He. rewrite Forall_forall in He. apply He, nth_In; auto. }
    destruct HE as [H1 H2].
    set (a := lab y (fst (nth e (ml_edges m) (0, 0)%nat))). set (b := lab y (snd (nth e (ml_edges m) (0, 0)%nat))).
    assert (A : (a < 2)%nat) by (apply (labelling_lt _ _ y _ Hy H1)).
    assert (B : (b < 2)%nat) by (apply (labelling_lt _ _ y _ Hy H2)).
    transitivity (sumn 4 (fun i => ind (i =? a * 2 + b)%nat * get1 w (ml_labels m * ml_features m + (e * 4 + i)))).
    + apply sumn_ext. intros i Hi. rewrite get1_skipn. ring.
    + rewrite (sumn_pick 4 (a * 2 + b) (fun i => get1 w (ml_labels m * ml_features m + (e * 4 + i)))) by lia. reflexivity.
Qed.

Lemma ml_score_linear m x y w : length x = ml_features m -> length w = ml_size m ->
  labelling (ml_labels m) 2 y -> graph_edges (ml_labels m) (ml_edges m) ->
  exists U P psi, ml_unary m x w = Ok U /\ ml_pairwise m w = Ok P /\
    ml_joint_feature m x (MDiscrete y) = Ok psi /\ length psi = ml_size m /\
    compute_energy U P (ml_edges m) y = Ok (dot w psi) /\
    dot w psi = score (ml_labels m) (ml_edges m) (label_unary (ml_features m) w x)
                      (label_pair (ml_labels m) (ml_features m) w) (lab y).
Proof.
  intros Hx Hw Hy He. destruct (ml_unary_ok m x w Hw Hx) as [U [EU [OU [RU [CU GU]]]]].
  destruct (ml_pairwise_ok m w Hw) as [d [EP [LP GP]]].
  destruct (ml_joint_ok m x y w Hx Hw Hy He) as [psi [E1 [E2 E3]]].
  eexists. eexists. exists psi. repeat (split; [eassumption|]). split; [|exact E3].
  rewrite (compute_energy_pw3 U d (ml_edges m) y (ml_labels m) 2) by assumption.
  f_equal. rewrite E3. apply score_ext; auto.
  - intros i Hi. apply GU; auto. eapply labelling_lt; eauto.
  - intros e a b Hee Ha Hb. apply GP; auto; eapply labelling_lt; eauto.
Qed.

(** relaxed labellings: the marginal-weighted score *)
Lemma ml_relaxed_linear m x yc pw w : length x = ml_features m -> length w = ml_size m ->
  mrows yc = ml_labels m -> mcols yc = 2%nat -> mat_ok pw -> mrows pw = length (ml_edges m) -> mcols pw = 4%nat ->
  exists psi, ml_joint_feature m x (MRelaxed yc pw) = Ok psi /\ length psi = ml_size m /\
    dot w psi =
      sumn (ml_labels m) (fun l => ((1 + 1) * mget yc l 1 - 1) * label_unary (ml_features m) w x l 1) +
      sumn (length (ml_edges m)) (fun e => sumn 2 (fun s => sumn 2 (fun t =>
        mget pw e (s * 2 + t) * label_pair (ml_labels m) (ml_features m) w e s t))) /\
    ((forall l, (l < ml_labels m)%nat -> mget yc l 0 + mget yc l 1 = 1) ->
     sumn (ml_labels m) (fun l => ((1 + 1) * mget yc l 1 - 1) * label_unary (ml_features m) w x l 1) =
     sumn (ml_labels m) (fun l => sumn 2 (fun s => mget yc l s * label_unary (ml_features m) w x l s))).
Proof.
  intros Hx Hw Hr Hc Hp Hpr Hpc. unfold ml_joint_feature. rewrite Hc. cbn [Nat.ltb Nat.leb ensure bind].
  eexists. split; [reflexivity|]. rewrite Hr. unfold ml_size in *.
  assert (LS : length (signed_rows x (tab1 (ml_labels m) (fun l => (1 + 1) * mget yc l 1 - 1))) = (ml_labels m * ml_features m)%nat).
  { rewrite signed_rows_length, tab1_length. congruence. }
  assert (EP : ravel pw = concat (tab2 (length (ml_edges m)) 4 (fun e i => mget pw e i))).
  { unfold ravel. f_equal. destruct Hp as [P1 P2]. apply (nth_ext _ _ [] []).
    - rewrite tab2_length. congruence.
    - intros i Hi. rewrite nth_tab2 by congruence. rewrite Forall_forall in P2.
      assert (L4 : length (nth i (mdat pw) []) = 4%nat) by (rewrite P2 by (apply nth_In; auto); auto).
      apply vec_ext. { rewrite tab1_length. auto. }
      intros j Hj. rewrite get1_tab1 by congruence. reflexivity. }
  split. { rewrite app_length, LS, EP, concat_tab2_length. lia. }
  split.
  - rewrite (dot_split w _ _ (ml_labels m * ml_features m)) by (rewrite ?LS, ?EP, ?concat_tab2_length; lia).
    f_equal.
    + rewrite (dot_signed _ x _ (ml_labels m)); [|apply tab1_length|rewrite firstn_length; lia].
      apply sumn_ext. intros l Hl. rewrite get1_tab1 by auto. unfold label_unary. cbn [Nat.eqb]. rewrite Hx.
      f_equal. apply sumn_ext. intros f Hf. rewrite get1_firstn by nia. reflexivity.
    + rewrite EP, dot_concat_tab2 by (rewrite skipn_length; lia).
      apply sumn_ext. intros e He'. unfold label_pair. rewrite !sumn_S, !sumn_O. rewrite !get1_skipn. cbn [Nat.mul Nat.add].
      ring.
  - intro H1. apply sumn_ext. intros l Hl. rewrite !sumn_S, !sumn_O. unfold label_unary. cbn [Nat.eqb].
    specialize (H1 l Hl). assert (E : mget yc l 0 = 1 - mget yc l 1) by (rewrite <- H1; ring). rewrite E. ring.
Qed.

(** ** exactness *)
Lemma get1_ones n i : (i < n)%nat -> get1 (repeat 1 n) i = 1.
Proof.
  intro H. unfold get1. rewrite nth_indep with (d' := 1) by (rewrite repeat_length; auto). apply nth_repeat.
Qed.
Lemma ml_inference_exact solve m x w :
  exact_on_tables solve (ml_labels m) (ml_edges m) -> graph_edges (ml_labels m) (ml_edges m) ->
  length x = ml_features m -> length w = ml_size m ->
  exists y psi, ml_inference solve m x w = Ok y /\ labelling (ml_labels m) 2 y /\
    ml_joint_feature m x (MDiscrete y) = Ok psi /\
    forall y' psi', labelling (ml_labels m) 2 y' -> ml_joint_feature m x (MDiscrete y') = Ok psi' ->
      dot w psi' <= dot w psi.
Proof.
  intros Hs He Hx Hw. destruct (ml_unary_ok m x w Hw Hx) as [U [EU [OU [RU [CU GU]]]]].
  destruct (ml_pairwise_ok m w Hw) as [d [EP [LP GP]]].
  destruct (Hs U (Pw3 (length (ml_edges m)) 2 2 d) 2%nat OU RU CU) as [y [Ey [Hy Hm]]].
  { repeat split; auto. } { lia. }
  destruct (ml_joint_ok m x y w Hx Hw Hy He) as [psi [E1 [E2 E3]]].
  exists y, psi. split.
  { unfold ml_inference. rewrite check_size_w_ok by exact Hw. cbn [bind]. rewrite EU. cbn [bind]. rewrite EP. exact Ey. }
  split; auto. split; auto. intros y' psi' Hy' E'.
  destruct (ml_joint_ok m x y' w Hx Hw Hy' He) as [psi2 [F1 [F2 F3]]]. rewrite E' in F1. injection F1 as <-.
  rewrite E3, F3. specialize (Hm y' Hy').
  assert (A : forall z, labelling (ml_labels m) 2 z -> score (ml_labels m) (ml_edges m) (mget U) (pw_table (Pw3 (length (ml_edges m)) 2 2 d)) (lab z) =
     score (ml_labels m) (ml_edges m) (label_unary (ml_features m) w x) (label_pair (ml_labels m) (ml_features m) w) (lab z)).
  { intros z Hz. apply score_ext; auto.
    - intros i Hi. apply GU; auto. eapply labelling_lt; eauto.
    - intros e a b Hee Ha Hb. apply GP; auto; eapply labelling_lt; eauto. }
  rewrite <- !A by assumption. exact Hm.
Qed.

Lemma loss_augment_long u y cw n k : mrows u = n -> mcols u = k -> (k <= length cw)%nat -> labelling n k y ->
  exists U', loss_augment_unaries u y cw = Ok U' /\ mat_ok U' /\ mrows U' = n /\ mcols U' = k /\
    forall i s, (i < n)%nat -> (s < k)%nat ->
      mget U' i s = mget u i s + (if (lab y i =? s)%nat then 0 else get1 cw (lab y i)).
Proof.
  intros Hr Hc Hcw Hy. unfold loss_augment_unaries.
  rewrite (mapM_ok _ (fun i => tab1 k (fun s => mget u i s + (if (lab y i =? s)%nat then 0 else get1 cw (lab y i))))).
  - cbn [bind]. rewrite Hr, Hc. eexists. split; [reflexivity|]. split; [apply (mtab_ok n k (fun i s => mget u i s + (if (lab y i =? s)%nat then 0 else get1 cw (lab y i))))|].
    split; auto. split; auto. intros i s Hi Hs.
    apply (mget_mtab n k (fun i s => mget u i s + (if (lab y i =? s)%nat then 0 else get1 cw (lab y i)))); auto.
  - intros i Hi. apply in_seq in Hi. assert (B := labelling_lt _ _ y i Hy ltac:(lia)). destruct Hy as [HL _].
    rewrite Hc. unfold tab1. apply mapM_ok. intros s Hs. unfold cindex.
    rewrite (nth_error_nth' y O) by lia. cbn [bind]. unfold lab in *. rewrite (Nat.eqb_sym (nth i y O) s).
    destruct (s =? nth i y O)%nat.
    + f_equal. ring.
    + rewrite (nth_error_nth' cw 0) by lia. reflexivity.
Qed.

Lemma ml_loss_augmented_exact solve m x y w :
  exact_on_tables solve (ml_labels m) (ml_edges m) -> graph_edges (ml_labels m) (ml_edges m) ->
  length x = ml_features m -> length w = ml_size m -> (2 <= ml_labels m)%nat -> labelling (ml_labels m) 2 y ->
  exists yh psi l, ml_loss_augmented_inference solve m x y w = Ok yh /\ labelling (ml_labels m) 2 yh /\
    ml_joint_feature m x (MDiscrete yh) = Ok psi /\ loss (Some (ml_class_weight m)) y yh = Ok l /\
    forall y' psi' l', labelling (ml_labels m) 2 y' -> ml_joint_feature m x (MDiscrete y') = Ok psi' ->
      loss (Some (ml_class_weight m)) y y' = Ok l' ->
      dot w psi' + l' <= dot w psi + l.
Proof.
  intros Hs He Hx Hw HL2 Hy. destruct (ml_unary_ok m x w Hw Hx) as [U [EU [OU [RU [CU GU]]]]].
  destruct (ml_pairwise_ok m w Hw) as [d [EP [LP GP]]].
  assert (LC : length (ml_class_weight m) = ml_labels m) by apply repeat_length.
  destruct (loss_augment_long U y (ml_class_weight m) (ml_labels m) 2 RU CU ltac:(lia) Hy) as [U' [EU' [OU' [RU' [CU' GU']]]]].
  destruct (Hs U' (Pw3 (length (ml_edges m)) 2 2 d) 2%nat OU' RU' CU') as [yh [Ey [Hyh Hm]]].
  { repeat split; auto. } { lia. }
  destruct (ml_joint_ok m x yh w Hx Hw Hyh He) as [psi [E1 [E2 E3]]].
  assert (Hy3 : labelling (ml_labels m) (ml_labels m) y).
  { destruct Hy as [H1 H2]. split; auto. eapply Forall_impl; [|exact H2]. cbv beta; intros; lia. }
  assert (LL : forall z, labelling (ml_labels m) 2 z -> loss (Some (ml_class_weight m)) y z = Ok (hamming (ml_labels m) (get1 (ml_class_weight m)) (lab y) (lab z))).
  { intros z Hz. apply (loss_weighted _ _ _ _ _ LC Hy3 (proj1 Hz)). }
  exists yh, psi. eexists. split.
  { unfold ml_loss_augmented_inference. rewrite check_size_w_ok by exact Hw. cbn [bind]. rewrite EU. cbn [bind].
    rewrite EP. cbn [bind]. rewrite EU'. exact Ey. }
  split; auto. split; auto. split; [apply LL; exact Hyh|]. intros y' psi' l' Hy' E' EL'.
  destruct (ml_joint_ok m x y' w Hx Hw Hy' He) as [psi2 [F1 [F2 F3]]]. rewrite E' in F1. injection F1 as <-.
  rewrite LL in EL' by exact Hy'. injection EL' as <-.
  rewrite E3, F3. specialize (Hm y' Hy').
  assert (A : forall z, labelling (ml_labels m) 2 z -> score (ml_labels m) (ml_edges m) (mget U') (pw_table (Pw3 (length (ml_edges m)) 2 2 d)) (lab z) =
     score (ml_labels m) (ml_edges m) (label_unary (ml_features m) w x) (label_pair (ml_labels m) (ml_features m) w) (lab z)
     + hamming (ml_labels m) (get1 (ml_class_weight m)) (lab y) (lab z)).
  { intros z Hz. 
    rewrite (score_ext (ml_labels m) (ml_edges m) (mget U')
       (fun i s => label_unary (ml_features m) w x i s + (if (lab y i =? s)%nat then 0 else get1 (ml_class_weight m) (lab y i)))
       (pw_table (Pw3 (length (ml_edges m)) 2 2 d)) (label_pair (ml_labels m) (ml_features m) w)); auto.
    - unfold score, hamming. rewrite sumn_plus. ring.
    - intros i Hi. assert (B := labelling_lt _ _ z i Hz Hi). rewrite GU' by auto. rewrite GU by auto. reflexivity.
    - intros e a b Hee Ha Hb. apply GP; auto; eapply labelling_lt; eauto. }
  rewrite <- !A by assumption. exact Hm.
Qed.

Lemma ml_single_label m y x w solve : ml_labels m = 1%nat -> length w = ml_size m -> length x = ml_features m ->
  y = [1%nat] ->
  loss (Some (ml_class_weight m)) y y = Err IndexError /\
  ml_loss_augmented_inference solve m x y w = Err OutOfBounds.
Proof.
  intros H1 Hw Hx ->. split.
  - unfold loss, class_weights, ml_class_weight. rewrite H1. reflexivity.
  - destruct (ml_unary_ok m x w Hw Hx) as [U [EU [OU [RU [CU GU]]]]].
    destruct (ml_pairwise_ok m w Hw) as [d [EP [LP GP]]].
    unfold ml_loss_augmented_inference. rewrite check_size_w_ok by exact Hw. cbn [bind]. rewrite EU. cbn [bind].
    rewrite EP. cbn [bind]. unfold loss_augment_unaries, ml_class_weight. rewrite RU, CU, H1. reflexivity.
Qed.

Lemma ml_rejects solve m x w y : 
  (length w <> ml_size m -> ml_inference solve m x w = Err ValueError /\ ml_loss_augmented_inference solve m x y w = Err ValueError) /\
  (length x <> ml_features m -> ml_inference solve m x w = Err ValueError /\ ml_loss_augmented_inference solve m x y w = Err ValueError).
Proof.
  unfold ml_inference, ml_loss_augmented_inference, check_size_w. split; intro H.
  - apply Nat.eqb_neq in H. rewrite H. auto.
  - destruct (length w =? ml_size m)%nat eqn:E; cbn [ensure bind]; auto. apply Nat.eqb_eq in E.
    assert (F : ml_unary m x w = Err ValueError).
    { unfold ml_unary, ml_size in *. rewrite reshape_ok by (rewrite firstn_length; lia). cbn [bind].
      apply Nat.eqb_neq in H. rewrite H. reflexivity. }
    rewrite F. auto.
Qed.

(** joint_feature itself checks nothing: its length follows the label vector and x *)
Lemma ml_joint_unchecked m x y psi : ml_joint_feature m x (MDiscrete y) = Ok psi ->
  length psi = (length y * length x + 4 * length (ml_edges m))%nat.
Proof.
  unfold ml_joint_feature. intro H. apply bind_ok in H. destruct H as [pw [E H]]. injection H as <-.
  rewrite app_length, signed_rows_length, map_length. f_equal.
  rewrite <- (mapM_length _ _ _ E).
  assert (G : forall p, In p pw -> length (concat p) = 4%nat).
  { intros p Hp. destruct (mapM_in _ _ _ _ E Hp) as [e [_ He]]. unfold edge_indicator in He.
    repeat (apply bind_ok in He; destruct He as [? [_ He]]). injection He as <-. apply concat_tab2_length. }
  clear E. induction pw as [|p pw IH]; [reflexivity|]. cbn [concat length]. rewrite concat_app, app_length, G by (simpl; auto).
  rewrite IH by (intros; apply G; simpl; auto). lia.
Qed.

From Coq Require Import ZArith.
From Verif Require Import Model.Subgradient Proofs.Arrays Proofs.LossProofs Proofs.CRFProofs Proofs.LearnerProofs Proofs.QPProofs
  Proofs.NSlackProofs5 Proofs.OneSlackProofs Proofs.OneSlackProofs2 Proofs.SubgradientProofs Spec.SubgradientSpec.

Lemma strong_weak {X Y} (T : task X Y) d C S w g : strong_subgradient T d C S w g -> subgradient T d C S w g.
Proof.
  intros [L H]. split; [exact L|]. intros w' hs hs' A B D. specialize (H w' hs hs' A B D).
  assert (P := Qchalf_nonneg _ (normsq_nonneg (vsub w' w))). qclra.
Qed.
Lemma half_sq w w' : length w = length w' ->
  normsq w' / (1 + 1) = normsq w / (1 + 1) + dot w (vsub w' w) + normsq (vsub w' w) / (1 + 1).
Proof.
  intro H. unfold normsq. rewrite !dot_vsub_r, !dot_vsub_l by auto. rewrite (dot_comm w' w).
  set (a := dot w w). set (b := dot w w'). set (c := dot w' w'). clearbody a b c. field. discriminate.
Qed.
Lemma strong_core {X Y} (T : task X Y) d C Xs Ys Yh w : good T d Xs Ys -> labelling T Xs Yh -> 0 <= C -> length w = d ->
  hinges T w (combine Xs Ys) (margins T w Xs Ys Yh) ->
  strong_subgradient T d C (combine Xs Ys) w (vsub w (vscale C (vsub (feat_sum T d Xs Ys) (feat_sum T d Xs Yh)))).
Proof.
  intros G HL HC Hw HH. assert (L1 := feat_sum_length T d Xs Ys Ys G (good_label _ _ _ _ G)). assert (L2 := feat_sum_length T d Xs Ys Yh G HL).
  set (dl := vsub (feat_sum T d Xs Ys) (feat_sum T d Xs Yh)). assert (L3 : length dl = d) by (unfold dl; rewrite vsub_length; congruence).
  split. { rewrite vsub_length; rewrite ?vscale_length; congruence. }
  intros w' hs hs' Hw' HH1 HH2. rewrite (hinges_unique T Xs Ys w _ _ HH1 HH).
  assert (M := margins_le T d Xs Ys G w' Yh hs' HL HH2). rewrite <- (sum_margins T d w' Xs Hw' Ys Yh G HL) in M.
  unfold primal_value. rewrite (half_sq w w') by congruence. rewrite <- (sum_margins T d w Xs Hw Ys Yh G HL).
  rewrite <- (dot_vsub_r (feat_sum T d Xs Ys) (feat_sum T d Xs Yh)) by congruence. rewrite <- (dot_vsub_r (feat_sum T d Xs Ys) (feat_sum T d Xs Yh)) in M by congruence. fold dl in M |- *.
  rewrite dot_vsub_l by (rewrite vscale_length; congruence). rewrite dot_vscale_l. rewrite (dot_vsub_r w' w dl) by congruence.
  rewrite (dot_comm dl w'), (dot_comm dl w).
  apply (Qcmult_le_compat_r _ _ C) in M; [|exact HC]. rewrite !(Qcmult_comm _ C) in M.
  set (A := loss_sum T Ys Yh) in *. set (B := dot w' dl) in *. set (D := dot w dl) in *. set (E := normsq w / (1 + 1)). set (F := normsq (vsub w' w) / (1 + 1)).
  set (K := dot w (vsub w' w)). replace (C * (A - B)) with (C * A - C * B) in M by ring.
  replace (C * (A - D) + E + (K - C * (B - D)) + F) with (C * A - C * B + (E + K + F)) by ring. qclra.
Qed.

(** ** the direction of a step without momentum *)
Lemma step_direction prm n lr dj st st' : sg_momentum prm = 0 -> solve_subgradient prm n lr dj st = Ok st' ->
  step_against prm n lr (vsub (sg_w st) (vscale (sg_C prm * ofN n) dj)) st st'.
Proof.
  intros HM H. apply solve_ok in H. destruct H as [[NZ _] [L1 [L2 [E1 [E2 [E3 E4]]]]]].
  split; [|split; [exact E3|exact E4]]. rewrite E2. unfold new_grad. rewrite HM.
  assert (LA : length (vsub dj (vscale (/ (sg_C prm * ofN n)) (sg_w st))) = length (sg_w st)) by (rewrite vsub_length; rewrite ?vscale_length; auto).
  assert (LB : length (vsub (sg_w st) (vscale (sg_C prm * ofN n) dj)) = length (sg_w st)) by (rewrite vsub_length; rewrite ?vscale_length; auto).
  assert (LC : length (vadd (vscale (1 - 0) (vsub dj (vscale (/ (sg_C prm * ofN n)) (sg_w st)))) (vscale 0 (sg_grad st))) = length (sg_w st)) by (rewrite vadd_length; rewrite ?vscale_length; congruence).
  apply vec_ext.
  - rewrite vadd_length by (rewrite vscale_length; auto). rewrite vsub_length by (rewrite vscale_length; auto). reflexivity.
  - intros i _. rewrite get1_vadd by (rewrite vscale_length; auto). rewrite get1_vscale, get1_vadd by (rewrite !vscale_length; congruence).
    rewrite !get1_vscale, get1_vsub by (rewrite vscale_length; auto). rewrite (get1_vsub (sg_w st)) by (rewrite vscale_length; auto).
    rewrite !get1_vscale, get1_vsub by (rewrite vscale_length; auto). rewrite get1_vscale. set (k := sg_C prm * ofN n) in *. set (r := rate_at _ _ _). clearbody k r. field. exact NZ.
Qed.
Lemma direction_length prm n (w dj : list Qc) : length dj = length w -> length (vsub w (vscale (sg_C prm * ofN n) dj)) = length w.
Proof. intro H. rewrite vsub_length; rewrite ?vscale_length; auto. Qed.

Lemma F2_cons {A B} (R : A -> B -> Prop) a l b r : Forall2 R (a :: l) (b :: r) -> R a b /\ Forall2 R l r.
Proof. intro H. inversion H. auto. Qed.
Lemma split_pairs {A B} (S : list (A * B)) : combine (map fst S) (map snd S) = S.
Proof. induction S as [|[a b] S IH]; [reflexivity|]. cbn. f_equal. exact IH. Qed.

Section dir.
Context {X Y : Type} (T : task X Y) (d : nat) (prm : sg_params).
Hypothesis HC : 0 < sg_C prm.

Lemma mini_step_dir (bm : bmodel X Y) n lr B st : (0 < n)%nat -> B <> [] -> sm_rescale (bm_s bm) = false ->
  batch_exact bm T d (map fst B) (map snd B) -> can_step prm n (sg_t st) -> shaped d st -> sg_momentum prm = 0 ->
  exists st' g, sg_mini_step prm bm n lr B st = Ok st' /\ shaped d st' /\ step_against prm n lr g st st' /\
    strong_subgradient T d (sg_C prm * ofN n / ofN (length B)) B (sg_w st) g /\
    exists Yh, labelling T (map fst B) Yh /\
      g = vsub (sg_w st) (vscale (sg_C prm * ofN n / ofN (length B)) (vsub (feat_sum T d (map fst B) (map snd B)) (feat_sum T d (map fst B) Yh))).
Proof.
  intros Hn HB HR HE HS HSh HM. assert (HE' := HE). destruct HE' as [HO _]. assert (G := batch_good _ _ _ _ _ HO).
  destruct HSh as [S1 [S2 S3]]. destruct (exact_hinges T d _ _ bm (sg_w st) G HE S1) as [Yh [EY [LY HH]]].
  destruct HO as [_ [_ [_ [HJ _]]]]. rewrite HR in HJ. destruct (HJ _ LY) as [J1 J2]. destruct (HJ _ (good_label _ _ _ _ G)) as [J3 _].
  assert (L1 := feat_sum_length T d _ _ _ G (good_label _ _ _ _ G)). assert (L2 := feat_sum_length T d _ _ _ G LY).
  set (dl := vsub (feat_sum T d (map fst B) (map snd B)) (feat_sum T d (map fst B) Yh)) in *.
  assert (L3 : length dl = d) by (unfold dl; rewrite vsub_length; congruence).
  assert (HK : (0 < length B)%nat) by (destruct B; [congruence|cbn; lia]).
  destruct (solve_total prm n lr (vscale (/ ofN (length B)) dl) st HS) as [st' EST]. { rewrite vscale_length. congruence. } { congruence. }
  exists st', (vsub (sg_w st) (vscale (sg_C prm * ofN n / ofN (length B)) dl)).
  assert (SH : shaped d st) by (split; [|split]; assumption).
  split; [|split; [apply (solve_shaped prm n lr (vscale (/ ofN (length B)) dl) d st st' SH EST)|split; [|split]]].
  - unfold sg_mini_step. rewrite EY. cbn [bind]. rewrite J3. cbn [bind]. rewrite J1. cbn [bind]. unfold np_vsub. rewrite L1, L2, Nat.eqb_refl. cbn [bind].
    rewrite J2. cbn [bind]. fold dl. rewrite np_dot_ok by congruence. cbn [bind]. destruct (Nat.eqb_spec (length B) 0); [lia|]. cbn [negb ensure bind]. exact EST.
  - assert (D := step_direction prm n lr _ st st' HM EST).
    replace (vscale (sg_C prm * ofN n / ofN (length B)) dl) with (vscale (sg_C prm * ofN n) (vscale (/ ofN (length B)) dl)); [exact D|].
    apply vec_ext. { rewrite !vscale_length. reflexivity. } intros i _. rewrite !get1_vscale. unfold Qcdiv. ring.
  - assert (SC : strong_subgradient T d (sg_C prm * ofN n / ofN (length B)) (combine (map fst B) (map snd B)) (sg_w st)
       (vsub (sg_w st) (vscale (sg_C prm * ofN n / ofN (length B)) dl))).
    { apply strong_core; auto. apply Qcmult_nonneg; [|apply Qclt_le_weak, Qcinv_pos, ofN_pos; exact HK].
      apply Qcmult_nonneg; [apply Qclt_le_weak; exact HC|apply ofN_nonneg]. }
    rewrite split_pairs in SC. exact SC.
  - exists Yh. split; [exact LY|reflexivity].
Qed.

Lemma implements_good (m : smodel X Y) x y : implements m T d x y -> good T d [x] [y].
Proof.
  intros [I1 [I2 I3]]. split; [reflexivity|]. intros p [<-|[]]. cbn [fst snd]. split; [exact I1|]. split; [exact I2|]. intros y' H. apply I3. exact H.
Qed.
Lemma online_step_dir (m : smodel X Y) n lr p st : (0 < n)%nat ->
  implements m T d (fst p) (snd p) -> exact_laug m T (sg_w st) (fst p) (snd p) -> can_step prm n (sg_t st) -> shaped d st -> sg_momentum prm = 0 ->
  exists st' h g, sg_online_step prm m n lr p st = Ok (st', Qcltb 0 h) /\ is_hinge T (sg_w st) (fst p) (snd p) h /\ shaped d st' /\
    step_against prm n lr g st st' /\ strong_subgradient T d (sg_C prm * ofN n) [p] (sg_w st) g /\
    exists yh, t_label T (fst p) yh /\ g = vsub (sg_w st) (vscale (sg_C prm * ofN n) (vsub (t_feat T (fst p) (snd p)) (t_feat T (fst p) yh))).
Proof.
  intros Hn HI HE HS SH HM. assert (SH' := SH). destruct SH' as [S1 [S2 S3]].
  destruct (find_constraint_hinge m T d (fst p) (snd p) (sg_w st) HI S1 HE) as [yh [s [EF [_ [LY [ES [_ HH]]]]]]].
  assert (LL : forall y, t_label T (fst p) y -> length (t_feat T (fst p) y) = d) by (destruct HI as [_ [_ I3]]; intros y Hy; apply I3; exact Hy).
  assert (LT : t_label T (fst p) (snd p)) by apply HI.
  set (dl := vsub (t_feat T (fst p) (snd p)) (t_feat T (fst p) yh)) in *.
  assert (L3 : length dl = d) by (unfold dl; rewrite vsub_length; rewrite ?LL; auto).
  destruct (solve_total prm n lr dl st HS) as [st' EST]; [congruence|congruence|].
  exists st', s, (vsub (sg_w st) (vscale (sg_C prm * ofN n) dl)).
  split; [unfold sg_online_step; rewrite EF; cbn [bind]; rewrite EST; reflexivity|]. split; [exact HH|].
  split; [apply (solve_shaped prm n lr dl d st st' SH EST)|]. split; [apply step_direction; auto|]. split; [|exists yh; auto].
  assert (SC : strong_subgradient T d (sg_C prm * ofN n) (combine [fst p] [snd p]) (sg_w st)
      (vsub (sg_w st) (vscale (sg_C prm * ofN n) (vsub (feat_sum T d [fst p] [snd p]) (feat_sum T d [fst p] [yh]))))).
  { apply strong_core.
    - eapply implements_good; eauto.
    - constructor; [exact LY|constructor].
    - apply Qcmult_nonneg; [apply Qclt_le_weak; exact HC|apply ofN_nonneg].
    - exact S1.
    - unfold margins. cbn [combine map fst snd]. constructor; [|constructor]. cbn [fst snd]. rewrite margin_sub by (rewrite !LL; auto). fold dl. rewrite <- ES. exact HH. }
  assert (FS : forall y, t_label T (fst p) y -> feat_sum T d [fst p] [y] = t_feat T (fst p) y).
  { intros y Hy. unfold feat_sum. cbn [combine map fold_right fst snd]. apply vec_ext. { rewrite vadd_length; rewrite ?vzero_length, ?LL; auto. }
    intros i _. rewrite get1_vadd by (rewrite vzero_length, LL; auto). rewrite get1_vzero. ring. }
  rewrite !FS in SC by auto. fold dl in SC. cbn [combine] in SC. rewrite <- surjective_pairing in SC. exact SC.
Qed.

(** ** regret of the Pegasos schedule *)
Hypothesis HM : sg_momentum prm = 0.
Hypothesis HD : sg_decay prm = 1%nat.
Hypothesis HT : 1 <= sg_t0 prm.
Context (n : nat).
Hypothesis Hn : (0 < n)%nat.
Let K := sg_C prm * ofN n.

Lemma Kpos : 0 < K.
Proof. apply Qcmult_pos; [exact HC|apply ofN_pos; exact Hn]. Qed.
Lemma time_ge t : 1 <= ofN t + sg_t0 prm.
Proof. clear HM. assert (P := ofN_nonneg t). qclra. Qed.
Lemma time_pos t : 0 < ofN t + sg_t0 prm.
Proof. apply Qclt_le_trans with 1; [reflexivity|apply time_ge]. Qed.
Lemma time_nz t : ofN t + sg_t0 prm <> 0.
Proof. intro E. assert (P := time_pos t). rewrite E in P. discriminate P. Qed.
Lemma always_step t : can_step prm n t.
Proof. split; [|intros _; apply time_nz]. intro E. assert (P := Kpos). unfold K in P. rewrite E in P. discriminate P. Qed.
Lemma rate_pegasos t : rate_at prm K t / K = / (ofN t + sg_t0 prm).
Proof.
  unfold rate_at. rewrite HD. cbn [Nat.eqb Qcpower]. assert (N1 := time_nz t). assert (N2 : K <> 0) by (intro E; assert (P := Kpos); rewrite E in P; discriminate P).
  set (s := ofN t + sg_t0 prm) in *. clearbody s K. field. split; auto.
Qed.
Lemma one_step_regret (S : list (X * Y)) C w w' g s u hs hu : 1 <= s -> length w = d -> length u = d ->
  strong_subgradient T d C S w g -> w' = vsub w (vscale (/ s) g) -> hinges T w S hs -> hinges T u S hu ->
  primal_value C w hs - primal_value C u hu <= ((s - 1) * normsq (vsub w u) - s * normsq (vsub w' u)) / (1 + 1) + normsq g / ((1 + 1) * s).
Proof.
  clear HM HC HT HD. intros Hs Hw Hu [Lg HG] -> H1 H2. specialize (HG u hs hu Hu H1 H2).
  assert (NZ : s <> 0) by (intro E; rewrite E in Hs; vm_compute in Hs; apply Hs; reflexivity).
  assert (E1 : normsq (vsub u w) = normsq (vsub w u)) by (unfold normsq; rewrite !dot_vsub_l, !dot_vsub_r by congruence; ring).
  assert (E2 : dot g (vsub u w) = - dot g (vsub w u)) by (rewrite !dot_vsub_r by congruence; ring).
  assert (LW : length (vsub w u) = d) by (rewrite vsub_length; congruence).
  assert (E3 : vsub (vsub w (vscale (/ s) g)) u = vsub (vsub w u) (vscale (/ s) g)).
  { assert (LX : length (vsub w (vscale (/ s) g)) = d) by (rewrite vsub_length; rewrite ?vscale_length; congruence).
    apply vec_ext. { rewrite !vsub_length; rewrite ?vscale_length, ?LX, ?LW; congruence. }
    intros i _. rewrite !get1_vsub by (rewrite ?vscale_length, ?LX, ?LW; congruence). ring. }
  assert (E4 : normsq (vsub (vsub w u) (vscale (/ s) g)) = normsq (vsub w u) - (/ s) * (dot g (vsub w u) + dot g (vsub w u)) + (/ s) * (/ s) * normsq g).
  { generalize (vsub w u), LW. clear - Lg. intros v LW. unfold normsq. rewrite dot_vsub_l, !dot_vsub_r by (rewrite vscale_length; congruence). rewrite !dot_vscale_l, !dot_vscale_r.
    rewrite (dot_comm v g). ring. }
  rewrite E1, E2 in HG. rewrite E3, E4. set (D := normsq (vsub w u)) in *. set (I := dot g (vsub w u)) in *. set (G := normsq g) in *.
  assert (N2 : 1 + 1 <> 0) by discriminate. set (two := 1 + 1) in *.
  assert (EQ : ((s - 1) * D - s * (D - / s * (I + I) + / s * / s * G)) / two + G / (two * s) = I - D / two).
  { transitivity ((I + I) / two - D / two).
    - clearbody two D I G. field. split; auto.
    - f_equal. replace (I + I) with (two * I) by (unfold two; ring). clearbody two. field. exact N2. }
  rewrite EQ. qclra.
Qed.

Context (m : smodel X Y) (R2 : Qc).
Notation spread := (spread T R2).

Lemma step_norms w dl s : length w = d -> length dl = d -> 1 <= s -> normsq dl <= R2 -> normsq w <= K * K * R2 ->
  let g := vsub w (vscale K dl) in
  normsq (vsub w (vscale (/ s) g)) <= K * K * R2 /\ normsq g <= (1 + 1 + 1 + 1) * (K * K * R2).
Proof.
  clear HM HC HT HD. intros Hw Hd Hs HR HW g. assert (NK : normsq (vscale K dl) <= K * K * R2).
  { unfold normsq. rewrite dot_vscale_l, dot_vscale_r. fold (normsq dl). rewrite Qcmult_assoc. rewrite (Qcmult_comm _ (normsq dl)), (Qcmult_comm _ R2).
    apply Qcmult_le_compat_r; [exact HR|apply Qc_sq_nonneg]. }
  assert (LK : length (vscale K dl) = d) by (rewrite vscale_length; auto). assert (LG : length g = d) by (unfold g; rewrite vsub_length; congruence).
  assert (P1 : 0 < / s) by (apply Qcinv_pos; apply Qclt_le_trans with 1; [reflexivity|exact Hs]).
  assert (P2 : / s <= 1).
  { assert (Q := Qcmult_le_compat_r _ _ (/ s) Hs (Qclt_le_weak _ _ P1)). rewrite Qcmult_1_l, Qcmult_inv_r in Q; [exact Q|].
    intro E. rewrite E in Hs. vm_compute in Hs. apply Hs. reflexivity. }
  split.
  - assert (EM : vsub w (vscale (/ s) g) = LearnerProofs.mix (/ s) (vscale K dl) w).
    { unfold LearnerProofs.mix. apply vec_ext.
      - rewrite vsub_length, vadd_length; rewrite ?vscale_length; congruence.
      - intros i _. rewrite get1_vsub, get1_vadd by (rewrite ?vscale_length; congruence). rewrite !get1_vscale. unfold g. rewrite get1_vsub by congruence. rewrite get1_vscale. ring. }
    rewrite EM. eapply Qcle_trans; [apply normsq_mix; [congruence|apply Qclt_le_weak; exact P1|exact P2]|].
    set (B := K * K * R2) in *. set (e := / s) in *. replace B with (B * e + B * (1 - e)) by ring. apply Qcplus_le_compat.
    + rewrite Qcmult_comm. apply Qcmult_le_compat_r; [exact NK|apply Qclt_le_weak; exact P1].
    + rewrite Qcmult_comm. apply Qcmult_le_compat_r; [exact HW|qclra].
  - assert (Q := normsq_nonneg (vadd w (vscale K dl))). unfold g. unfold normsq in *. rewrite dot_vadd_l, !dot_vadd_r in Q by congruence.
    rewrite dot_vsub_l, !dot_vsub_r by congruence. rewrite (dot_comm (vscale K dl) w) in *.
    set (a := dot w w) in *. set (b := dot w (vscale K dl)) in *. set (c := dot (vscale K dl) (vscale K dl)) in *. set (B := K * K * R2) in *.
    replace ((1 + 1 + 1 + 1) * B) with (B + B + B + B) by ring. qclra.
Qed.
Lemma harmonic_S t0 f k : harmonic t0 f (S k) = / (ofN f + t0) + harmonic t0 (S f) k.
Proof. reflexivity. Qed.

Lemma online_regret : forall V st, shaped d st -> normsq (sg_w st) <= K * K * R2 ->
  Forall (fun q => implements m T d (fst (fst q)) (snd (fst q)) /\ (forall w, length w = d -> exact_laug m T w (fst (fst q)) (snd (fst q))) /\ spread (fst q)) V ->
  sg_visits prm m n K st V ->
  forall u hs hu, length u = d -> visit_hinges T (befores st V) hs -> visit_hinges T (map (fun q => (fst q, u)) V) hu ->
  online_cost K (befores st V) hs - online_cost K (map (fun q => (fst q, u)) V) hu <=
    (ofN (sg_t st) + sg_t0 prm - 1) * normsq (vsub (sg_w st) u) / (1 + 1) + (1 + 1) * (K * K * R2) * harmonic (sg_t0 prm) (sg_t st) (length V).
Proof.
  induction V as [|[p st'] V IH]; intros st SH HN HV HR u hs hu Hu H1 H2.
  - inversion H1; subst. inversion H2; subst. unfold online_cost, harmonic. cbn [befores map zipw lsum length seq].
    assert (P := time_ge (sg_t st)). assert (Q := Qchalf_nonneg _ (normsq_nonneg (vsub (sg_w st) u))).
    assert (Q2 : 0 <= (ofN (sg_t st) + sg_t0 prm - 1) * (normsq (vsub (sg_w st) u) / (1 + 1))) by (apply Qcmult_nonneg; [qclra|exact Q]).
    unfold Qcdiv in *. rewrite Qcmult_assoc in Q2.
    match goal with |- _ <= ?z + _ * 0 => replace (z + (1 + 1) * (K * K * R2) * 0) with z by ring; replace (0 - 0) with 0 by ring; exact Q2 end.
  - destruct HR as [[b HR] HR']. apply Forall_cons_iff in HV. destruct HV as [[I1 [I2 I3]] HV']. cbn [fst snd] in *.
    destruct SH as [S1 [S2 S3]]. assert (SH : shaped d st) by (split; [|split]; assumption).
    destruct (online_step_dir m n K p st Hn I1 (I2 _ S1) (always_step _) SH HM) as [st2 [h0 [g [E1 [E2 [E3 [E4 [E5 [yh [LY EG]]]]]]]]]].
    rewrite HR in E1. injection E1 as <- _. subst g. cbn [befores map] in H1, H2. destruct hs as [|h hs']; [inversion H1|]. destruct hu as [|hv hu']; [inversion H2|].
    apply F2_cons in H1. destruct H1 as [J1 J2]. apply F2_cons in H2. destruct H2 as [J3 J4].
    cbn [fst snd] in *. destruct E4 as [EW [_ ET]]. fold K in EW. rewrite rate_pegasos in EW.
    assert (LD : length (vsub (t_feat T (fst p) (snd p)) (t_feat T (fst p) yh)) = d).
    { destruct I1 as [A1 [_ A3]]. destruct (A3 _ A1) as [B1 _]. destruct (A3 _ LY) as [B2 _]. rewrite vsub_length; congruence. }
    destruct (step_norms (sg_w st) _ (ofN (sg_t st) + sg_t0 prm) S1 LD (time_ge _) (I3 yh LY) HN) as [N1 N2].
    fold K in EW, E5, N1, N2. rewrite <- EW in N1.
    assert (IH' := IH st' E3 N1 HV' HR' u hs' hu' Hu J2 J4). rewrite ET in IH'.
    assert (OS := one_step_regret [p] K (sg_w st) (sg_w st') _ (ofN (sg_t st) + sg_t0 prm) u [h] [hv] (time_ge _) S1 Hu E5 EW).
    assert (OS' := OS ltac:(constructor; [exact J1|constructor]) ltac:(constructor; [exact J3|constructor])). clear OS.
    unfold online_cost in *. cbn [befores map zipw lsum length snd]. rewrite harmonic_S.
    rewrite ofN_S in IH'. set (g := vsub (sg_w st) (vscale K (vsub (t_feat T (fst p) (snd p)) (t_feat T (fst p) yh)))) in *.
    assert (PS := time_pos (sg_t st)). assert (NZ := time_nz (sg_t st)). set (s := ofN (sg_t st) + sg_t0 prm) in *.
    replace (1 + ofN (sg_t st) + sg_t0 prm - 1) with s in IH' by (unfold s; ring).
    set (D := normsq (vsub (sg_w st) u)) in *. set (D' := normsq (vsub (sg_w st') u)) in *. set (B := K * K * R2) in *.
    set (H := harmonic _ _ _) in *. set (a := primal_value K (sg_w st) [h]) in *. set (b' := primal_value K u [hv]) in *.
    assert (GB : normsq g / ((1 + 1) * s) <= (1 + 1) * B * / s).
    { unfold Qcdiv. assert (P2 : 0 < (1 + 1) * s) by (apply Qcmult_pos; [reflexivity|exact PS]).
      eapply Qcle_trans; [apply Qcmult_le_compat_r; [exact N2|apply Qclt_le_weak, Qcinv_pos; exact P2]|].
      match goal with |- ?a <= ?b => replace a with b; [apply Qcle_refl|] end. assert (N3 : 1 + 1 <> 0) by discriminate. set (two := 1 + 1) in *. replace (two + 1 + 1) with (two * two) by (unfold two; ring). clearbody two s B. field. split; auto. }
    assert (EX : ((s - 1) * D - s * D') / (1 + 1) = (s - 1) * D / (1 + 1) - s * D' / (1 + 1)) by (unfold Qcdiv; ring).
    rewrite EX in OS'. replace ((1 + 1) * B * (/ s + H)) with ((1 + 1) * B * / s + (1 + 1) * B * H) by ring.
    set (x1 := (1 + 1) * B * / s) in *. set (x2 := (1 + 1) * B * H) in *. set (x3 := s * D' / (1 + 1)) in *. set (x4 := (s - 1) * D / (1 + 1)) in *.
    set (x5 := normsq g / ((1 + 1) * s)) in *.
    set (y1 := lsum (zipw _ (befores st' V) hs')) in *. set (y2 := lsum (zipw _ (map _ V) hu')) in *.
    clearbody x1 x2 x3 x4 x5 y1 y2 a b'. qclra.
Qed.
End dir.

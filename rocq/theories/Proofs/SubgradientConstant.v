(** Full batches with a constant learning rate (decay_exponent=0). *)
From Coq Require Import ZArith Permutation.
From Verif Require Import Model.Subgradient Proofs.Arrays Proofs.LossProofs Proofs.CRFProofs Proofs.LearnerProofs Proofs.QPProofs
  Proofs.NSlackProofs5 Proofs.OneSlackProofs Proofs.OneSlackProofs2 Proofs.SubgradientProofs Proofs.SubgradientProofs2 Proofs.SubgradientProofs3 Proofs.SubgradientProofs4 Proofs.SubgradientProofs5
  Spec.SubgradientRateSpec Proofs.SubgradientRate Proofs.SubgradientRate2 Proofs.SubgradientRate3 Proofs.SubgradientRate4 Proofs.SubgradientRate5.

Section const.
Context {X Y : Type} (T : task X Y) (d : nat) (prm : sg_params) (bm : bmodel X Y) (S : list (X * Y)) (R2 lr : Qc) (shuf : nat -> list (X * Y) -> list (X * Y)).
Notation n := (length S).
Notation K := (sg_C prm * ofN n).
Notation GG := ((1 + 1 + 1 + 1) * (K * K * R2)).
Hypothesis HC : 0 < sg_C prm.
Hypothesis HM : sg_momentum prm = 0.
Hypothesis HD : sg_decay prm = 0%nat.
Hypothesis HA : sg_avg prm = AvgNone.
Hypothesis HFB : full_batch prm.
Hypothesis Hd : sm_size (bm_s bm) = d.
Hypothesis HO : oracle_exact (bm_s bm) T d S.
Hypothesis HBx : batches_exact bm T d S.
Hypothesis HSp : Forall (spread T R2) S.
Hypothesis HR : 0 <= R2.
Hypothesis Hn : (0 < n)%nat.
Hypothesis Hlr : 0 < lr.
Hypothesis HlK : lr <= K.
Hypothesis HSh : forall it S', Permutation S' S -> Permutation (shuf it S') S.

Lemma K_pos : 0 < K.
Proof. apply Qcmult_pos; [exact HC|apply ofN_pos; exact Hn]. Qed.
Lemma K_nz : K <> 0.
Proof. intro E. assert (P := K_pos). rewrite E in P. discriminate P. Qed.
Lemma lr_nz : lr <> 0.
Proof. intro E. rewrite E in Hlr. discriminate Hlr. Qed.
Lemma s_ge : 1 <= K / lr.
Proof.
  assert (I := Qcinv_pos lr Hlr). apply Qcle_trans with (lr * / lr); [rewrite Qcmult_inv_r by exact lr_nz; apply Qcle_refl|].
  apply Qcmult_le_compat_r; [exact HlK|apply Qclt_le_weak; exact I].
Qed.
Lemma s_inv : / (K / lr) = lr / K.
Proof. assert (A := K_nz). assert (B := lr_nz). set (k := K) in *. clearbody k. field. auto. Qed.
Notation f := (comp T (bm_s bm) (sg_C prm) S).
Lemma comp_perm S' v : Permutation S' S -> comp T (bm_s bm) (sg_C prm) S' v = f v.
Proof.
  intro HP. unfold comp, primal_value. f_equal. f_equal. apply (Permutation_map (hv T (bm_s bm) v)) in HP.
  clear - HP. induction HP; cbn [lsum]; [reflexivity|rewrite IHHP; reflexivity|ring|congruence].
Qed.
Definition from_labels (w : list Qc) : Prop := exists S' Yh, Permutation S' S /\ labelling T (map fst S') Yh /\
  w = vscale (sg_C prm) (vsub (feat_sum T d (map fst S') (map snd S')) (feat_sum T d (map fst S') Yh)).

Lemma const_step S' st : Permutation S' S -> shaped d st -> normsq (sg_w st) <= K * K * R2 ->
  exists st' g, sg_epoch prm bm lr S' st = Ok (st', (-1)%Z) /\ shaped d st' /\ sg_self st' = sg_w st' /\ sg_t st' = Datatypes.S (sg_t st) /\
    slope d GG f (sg_w st) g /\ sg_w st' = vsub (sg_w st) (vscale (/ (K / lr)) g) /\ normsq (sg_w st') <= K * K * R2 /\ (lr = K -> from_labels (sg_w st')).
Proof.
  intros HP SH HN. destruct HFB as [HJ HB]. destruct HBx as [HRe HX]. assert (LS := Permutation_length HP). assert (IN := perm_incl _ _ HP).
  assert (NE : S' <> []) by (intro E; subst S'; cbn in LS; lia).
  assert (CS : can_step prm n (sg_t st)) by (split; [apply K_nz|intro E; congruence]).
  assert (BX := HX S' IN NE).
  destruct (mini_step_dir T d prm HC bm n lr S' st Hn NE HRe BX CS SH HM) as [st' [g [E1 [E2 [[E3 [E3' E3'']] [E4 [Yh [LY EG]]]]]]]].
  exists st', g. split.
  { unfold sg_epoch. rewrite HJ. cbn [Z.eqb Pos.eqb]. unfold sg_sequential. rewrite HB. cbn [Z.eqb Pos.eqb bind]. rewrite LS. cbn [sg_mini]. rewrite E1. reflexivity. }
  split; [exact E2|]. split; [rewrite E3', HA; reflexivity|]. split; [exact E3''|].
  assert (NZ := ofN_neq0 _ Hn). assert (KZ := K_nz).
  assert (EC : K / ofN (length S') = sg_C prm) by (rewrite LS; clear - NZ; set (z := ofN n) in *; clearbody z; field; exact NZ).
  rewrite EC in E4, EG. unfold rate_at in E3. rewrite HD in E3. cbn [Nat.eqb] in E3. rewrite <- s_inv in E3.
  assert (G : good T d (map fst S') (map snd S')) by (eapply batch_good; apply BX).
  set (dl := vsub (feat_sum T d (map fst S') (map snd S')) (feat_sum T d (map fst S') Yh)) in *.
  assert (LD : length dl = d) by (unfold dl; rewrite vsub_length; rewrite !(feat_sum_length T d (map fst S') (map snd S')); auto; eapply good_label; eauto).
  assert (EG' : g = vsub (sg_w st) (vscale K (vscale (/ ofN n) dl))).
  { rewrite EG. f_equal. apply vec_ext. { rewrite !vscale_length. reflexivity. } intros i _. rewrite !get1_vscale. clear - NZ. set (z := ofN n) in *. clearbody z. field. exact NZ. }
  assert (ND : normsq (vscale (/ ofN n) dl) <= R2).
  { rewrite normsq_scale. assert (SP' : Forall (spread T R2) S') by (apply Forall_forall; intros q Hq; exact (proj1 (Forall_forall _ _) HSp q (IN q Hq))).
    assert (DB := delta_bound T d prm R2 HM HR (map fst S') (map snd S') Yh G LY). rewrite split_pairs in DB. specialize (DB SP'). rewrite map_length, LS in DB. fold dl in DB.
    apply Qcle_trans with (/ ofN n * / ofN n * (ofN n * ofN n * R2)).
    - rewrite !(Qcmult_comm (/ ofN n * / ofN n)). apply Qcmult_le_compat_r; [exact DB|apply Qc_sq_nonneg].
    - match goal with |- ?a <= ?b => replace a with b; [apply Qcle_refl|] end. clear - NZ. set (z := ofN n) in *. clearbody z. field. exact NZ. }
  assert (SN := step_norms d prm n R2 (sg_w st) (vscale (/ ofN n) dl) (K / lr) (proj1 SH) ltac:(rewrite vscale_length; exact LD) s_ge ND HN).
  cbv zeta in SN. rewrite <- EG', <- E3 in SN. destruct SN as [N1 N2]. split.
  { assert (SL := slope_of T d prm (bm_s bm) n R2 (sg_C prm) S' (sg_w st) g (exact_incl _ _ _ _ _ HO IN) (proj1 SH) E4 N2).
    destruct SL as [A1 [A2 A3]]. split; [exact A1|]. split; [exact A2|]. intros w' Hw'. specialize (A3 w' Hw'). rewrite !(comp_perm S') in A3 by exact HP. exact A3. }
  split; [exact E3|]. split; [exact N1|]. intro EK. exists S', Yh. split; [exact HP|]. split; [exact LY|]. fold dl. rewrite E3, s_inv, EK, EG.
  apply vec_ext. { rewrite !vsub_length; rewrite ?vscale_length, ?vsub_length; rewrite ?vscale_length; destruct SH as [SH _]; congruence. }
  intros i _. assert (SH1 := proj1 SH). rewrite get1_vsub by (rewrite vscale_length, vsub_length; rewrite ?vscale_length; congruence).
  rewrite !get1_vscale, get1_vsub by (rewrite vscale_length; congruence). rewrite !get1_vscale. generalize (get1 (sg_w st) i) (get1 dl i). intros a b.
  clear - KZ. set (k := K) in *. clearbody k. field. exact KZ.
Qed.

Definition qq : Qc := 1 - lr / K.
Lemma qq_nonneg : 0 <= qq.
Proof.
  unfold qq. assert (A := s_ge). rewrite <- s_inv. set (s := K / lr) in *. assert (PS := ge1_pos s A).
  assert (V : / s <= 1). { rewrite <- (Qcmult_inv_r 1) by discriminate. rewrite Qcmult_1_l. apply inv_le; [reflexivity|exact A]. }
  set (z := / s) in *. clearbody z. clear - V. qclra.
Qed.
Lemma contract w g u eps : length w = d -> length u = d -> slope d GG f w g -> f u <= f w + eps ->
  normsq (vsub (vsub w (vscale (/ (K / lr)) g)) u) <= qq * normsq (vsub w u) + (1 - qq) * (eps + eps + lr / K * GG).
Proof.
  intros Hw Hu SL HU. assert (ST := step_sq d GG f w g (K / lr) u s_ge Hw Hu SL). unfold qq. rewrite <- s_inv. assert (Hs := s_ge). assert (PS := ge1_pos _ Hs). assert (NS := ge1_nz _ Hs).
  set (s := K / lr) in *. set (D := normsq (vsub w u)) in *. set (D' := normsq (vsub (vsub w (vscale (/ s) g)) u)) in *. set (G := GG) in *. set (a := f w) in *. set (b := f u) in *.
  clearbody s D D' G a b. clear - ST PS NS HU.
  assert (I : 0 <= / s) by (apply Qclt_le_weak, Qcinv_pos; exact PS).
  assert (H : s * D' <= (s - 1) * D + (eps + eps) + G / s).
  { set (x := s * D') in *. set (y := (s - 1) * D) in *. set (z := G / s) in *. clearbody x y z. clear - ST HU. qclra. }
  apply (Qcmult_le_compat_r _ _ (/ s)) in H; [|exact I].
  replace (s * D' * / s) with D' in H by (field; exact NS).
  replace (((s - 1) * D + (eps + eps) + G / s) * / s) with ((1 - / s) * D + (1 - (1 - / s)) * (eps + eps + / s * G)) in H by (field; exact NS). exact H.
Qed.

Lemma const_loop : forall k it S0 st c, Permutation S0 S -> shaped d st -> normsq (sg_w st) <= K * K * R2 -> sg_self st = sg_w st -> exists st' c' S',
  sg_loop prm bm lr shuf k it S0 st c = Ok (st', c', S') /\ Permutation S' S /\ shaped d st' /\ normsq (sg_w st') <= K * K * R2 /\ sg_self st' = sg_w st' /\
  sg_t st' = (sg_t st + k)%nat /\ ((0 < k)%nat -> lr = K -> from_labels (sg_w st')) /\
  forall u eps, length u = d -> (forall v, length v = d -> f u <= f v + eps) ->
    normsq (vsub (sg_w st') u) <= Qcpower qq k * normsq (vsub (sg_w st) u) + (1 - Qcpower qq k) * (eps + eps + lr / K * GG).
Proof.
  induction k as [|k IH]; intros it S0 st c HP SH HN HS; cbn [sg_loop].
  - exists st, c, S0. split; [reflexivity|]. split; [exact HP|]. split; [exact SH|]. split; [exact HN|]. split; [exact HS|]. split; [lia|]. split; [lia|].
    intros u eps _ _. cbn [Qcpower]. match goal with |- ?a <= ?b => replace b with a; [apply Qcle_refl|] end. ring.
  - assert (HP' := HSh it S0 HP). destruct (const_step (shuf it S0) st HP' SH HN) as [st1 [g [E1 [E2 [E3 [E4 [E5 [E6 [E7 E8]]]]]]]]]. rewrite E1. cbn [bind fst snd Z.eqb andb].
    assert (LS := Permutation_length HP'). destruct (objective_total T d prm bm n Hn (shuf it S0) (sg_self st1)) as [o EO]; [lia| |apply E2|].
    { apply exact_is_ok. apply (exact_incl _ _ _ _ _ HO). apply perm_incl. exact HP'. }
    rewrite EO. cbn [bind]. destruct (IH (Datatypes.S it) (shuf it S0) st1 (c ++ [o]) HP' E2 E7 E3) as [st' [c' [S' [F1 [F2 [F3 [F4 [F5 [F6 [F7 F8]]]]]]]]]].
    exists st', c', S'. split; [exact F1|]. split; [exact F2|]. split; [exact F3|]. split; [exact F4|]. split; [exact F5|]. split; [rewrite F6, E4; lia|]. split.
    + intros _ EK. destruct k as [|k]; [|apply F7; [lia|exact EK]]. cbn [sg_loop] in F1. inversion F1. subst st'. apply E8. exact EK.
    + intros u eps Hu HU. specialize (F8 u eps Hu HU). assert (CT := contract (sg_w st) g u eps (proj1 SH) Hu E5 (HU _ (proj1 SH))). rewrite <- E6 in CT.
      eapply Qcle_trans; [exact F8|]. cbn [Qcpower]. assert (Q := qq_nonneg). assert (QP : 0 <= Qcpower qq k).
      { clear - Q. induction k as [|k IHk]; cbn [Qcpower]; [discriminate|]. apply Qcmult_nonneg; assumption. }
      apply (Qcmult_le_compat_r _ _ (Qcpower qq k)) in CT; [|exact QP].
      set (b := eps + eps + lr / K * GG) in *. set (D1 := normsq (vsub (sg_w st1) u)) in *. set (D0 := normsq (vsub (sg_w st) u)) in *. set (p := Qcpower qq k) in *.
      apply Qcle_trans with ((qq * D0 + (1 - qq) * b) * p + (1 - p) * b).
      * rewrite (Qcmult_comm p D1). set (x := D1 * p) in *. set (y := (qq * D0 + (1 - qq) * b) * p) in *. set (z := (1 - p) * b). clearbody x y z. clear - CT. qclra.
      * match goal with |- ?a <= ?b => replace b with a; [apply Qcle_refl|] end. ring.
Qed.
Lemma const_fit (warm : bool) L : length (start_weights d L) = d -> normsq (start_weights d L) <= K * K * R2 ->
  (if warm then exists w c, sl_fitted L = Some (w, lr, c) else sg_lr prm = Some lr \/ sg_lr prm = None /\ lr = K) ->
  exists w c, sg_fit prm bm shuf warm S L = Ok (SGLearner (sl_t L + sg_max_iter prm) (Some (w, lr, c))) /\ length w = d /\ normsq w <= K * K * R2 /\
  ((0 < sg_max_iter prm)%nat -> lr = K -> from_labels w) /\
  forall u eps, near_minimal T d (sg_C prm) S u eps ->
    normsq (vsub w u) <= Qcpower qq (sg_max_iter prm) * normsq (vsub (start_weights d L) u) + (1 - Qcpower qq (sg_max_iter prm)) * (eps + eps + lr / K * GG).
Proof.
  intros LW NW HL. set (st0 := SGState (start_weights d L) (start_weights d L) (vzero d) (sl_t L)).
  assert (LC : exists c0, (if warm then match sl_fitted L with Some (_, lr, c) => Ok (lr, c) | None => Err AttributeError end
      else Ok (match sg_lr prm with None => sg_C prm * ofN (length S) | Some r => r end, [])) = Ok (lr, c0)).
  { destruct warm; [destruct HL as [w [c E]]; rewrite E; eauto|]. destruct HL as [E|[E E']]; rewrite E; [|rewrite E']; eauto. }
  destruct LC as [c0 LC].
  destruct (const_loop (sg_max_iter prm) 0 S st0 c0 (Permutation_refl S)) as [st' [c' [S' [F1 [F2 [F3 [F4 [F5 [F6 [F7 F8]]]]]]]]]].
  { split; [exact LW|split; [exact LW|apply vzero_length]]. } { exact NW. } { reflexivity. }
  assert (LS := Permutation_length F2). destruct (objective_total T d prm bm n Hn S' (sg_self st')) as [o EO]; [lia| |apply F3|].
  { apply exact_is_ok. apply (exact_incl _ _ _ _ _ HO). apply perm_incl. exact F2. }
  exists (sg_self st'), (c' ++ [o]). split.
  - unfold sg_fit. rewrite LC. cbn [bind fst snd]. rewrite Hd. change (SGState _ _ _ _) with st0. rewrite F1. cbn [bind]. rewrite EO. cbn [bind]. rewrite F6. reflexivity.
  - rewrite F5. split; [apply F3|]. split; [exact F4|]. split; [exact F7|]. intros u eps [Hu [hs [HH HU]]]. apply (F8 u eps Hu). intros v Hv.
    specialize (HU v _ Hv (hinges_hv T d (bm_s bm) S v HO Hv)). rewrite (hinges_are T d (bm_s bm) S u hs HO Hu HH) in HU. exact HU.
Qed.
Lemma ball_slope w : length w = d -> normsq w <= K * K * R2 -> exists g, slope d GG f w g.
Proof.
  intros Hw HN. destruct (const_step S (SGState w w (vzero d) 0) (Permutation_refl S)) as [st' [g [_ [_ [_ [_ [A _]]]]]]]; [|exact HN|exists g; exact A].
  split; [exact Hw|]. split; [exact Hw|apply vzero_length].
Qed.
Lemma GG_nonneg : 0 <= GG.
Proof. apply Qcmult_nonneg; [discriminate|]. apply Qcmult_nonneg; [apply Qc_sq_nonneg|exact HR]. Qed.
Lemma const_value w u eps N r : length w = d -> normsq w <= K * K * R2 -> near_minimal T d (sg_C prm) S u eps -> normsq (vsub w u) <= N -> 0 <= r -> GG * N <= r * r ->
  near_minimal T d (sg_C prm) S w (eps + r).
Proof.
  intros Hw HN [Hu [hs [HH HU]]] HD' Hr HG. destruct (ball_slope w Hw HN) as [g SL]. assert (V := value_gap d GG GG_nonneg f w g u r N SL Hw Hu Hr HD' HG).
  split; [exact Hw|]. exists (map (hv T (bm_s bm) w) S). split; [apply (hinges_hv T d); auto|]. intros v hv' Hv HV. specialize (HU v hv' Hv HV).
  rewrite (hinges_are T d (bm_s bm) S u hs HO Hu HH) in HU. fold (comp T (bm_s bm) (sg_C prm) S u) in HU. fold (comp T (bm_s bm) (sg_C prm) S w).
  set (a := f w) in *. set (b := f u) in *. set (c := primal_value _ v hv') in *. clearbody a b c. clear - V HU. qclra.
Qed.
End const.

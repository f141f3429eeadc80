From Coq Require Import ZArith.
From Verif Require Import Model.NSlack Model.OneSlack Spec.TaskInstances Proofs.Arrays Proofs.LossProofs Proofs.LearnerProofs
  Proofs.QPProofs Proofs.NSlackProofs4 Proofs.OneSlackQP Proofs.OneSlackProofs Proofs.OneSlackProofs2 Proofs.NSlackExamples Proofs.OneSlackExamples
  Proofs.CuttingPlane Proofs.CuttingPlane2 Proofs.CuttingPlane3 Proofs.CuttingPlane4 Spec.CuttingPlaneSpec.

(** ** bounds per sample give bounds of the mean constraints *)
Lemma vsub_vadd a b c e : length a = length b -> length c = length b -> length e = length b ->
  vsub (vadd a b) (vadd c e) = vadd (vsub a c) (vsub b e).
Proof.
  intros H1 H2 H3. assert (L1 : length (vadd a b) = length b) by (rewrite vadd_length; auto). assert (L2 : length (vadd c e) = length b) by (rewrite vadd_length; congruence).
  assert (L3 : length (vsub a c) = length b) by (rewrite vsub_length; congruence). assert (L4 : length (vsub b e) = length b) by (rewrite vsub_length; congruence).
  assert (L5 : length (vadd (vsub a c) (vsub b e)) = length b) by (rewrite vadd_length; congruence).
  apply vec_ext. { rewrite vsub_length; congruence. }
  intros i Hi. rewrite get1_vsub, !get1_vadd, !get1_vsub by congruence. ring.
Qed.
Lemma normsq_vadd_le k R2 S u : length S = length u -> 0 <= k -> normsq S <= k * k * R2 -> (k = 0 -> normsq S = 0) -> normsq u <= R2 -> normsq (vadd S u) <= (1 + k) * (1 + k) * R2.
Proof.
  intros HL Hk HS H0 HU. unfold normsq. rewrite dot_vadd_l, !dot_vadd_r by (rewrite ?vadd_length; auto). rewrite (dot_comm u S).
  fold (normsq S). fold (normsq u). assert (Q : 0 <= normsq (vsub S (vscale k u))) by apply normsq_nonneg.
  unfold normsq in Q. rewrite dot_vsub_l, !dot_vsub_r, !dot_vscale_l, !dot_vscale_r in Q by (rewrite ?vsub_length, ?vscale_length; auto; rewrite vscale_length; auto).
  rewrite (dot_comm u S) in Q. fold (normsq S) in Q. fold (normsq u) in Q. set (s := dot S u) in *.
  destruct (Qc_eq_dec k 0) as [Z|NZ].
  - assert (NS := H0 Z). assert (s = 0).
    { unfold s. assert (CS := cauchy_schwarz S u HL). fold (normsq S) in CS. assert (EQ : dot S u * dot S u <= 0). { eapply Qcle_trans; [exact CS|]. rewrite NS. apply Qceq_le. ring. }
      assert (N := Qc_sq_nonneg (dot S u)). assert (E : dot S u * dot S u = 0) by (apply Qcle_antisym; auto). apply Qcmult_integral in E. tauto. }
    rewrite NS, H, Z. replace ((1 + 0) * (1 + 0) * R2) with R2 by ring. replace (0 + 0 + (0 + normsq u)) with (normsq u) by ring. auto.
  - assert (PK : 0 < k). { destruct (Qcle_lt_or_eq _ _ Hk); auto. congruence. }
    assert (PU : k * k * normsq u <= k * k * R2). { rewrite (Qcmult_comm (k*k)), (Qcmult_comm (k * k) R2). apply Qcmult_le_compat_r; auto. apply Qc_sq_nonneg. }
    assert (B : k * s <= k * (k * R2)).
    { set (a := normsq S) in *. replace (k * (k * R2)) with (k * k * R2) by ring. replace (a - k * s - (k * s - k * (k * normsq u))) with (a - k * s - (k * s - k * k * normsq u)) in Q by ring.
      set (x := k * s) in *. set (y := k * k * R2) in *. set (z := k * k * normsq u) in *. clearbody x y z a. clear - Q HS PU. qclra. }
    assert (B2 : s <= k * R2). { apply Qcmult_lt_0_le_reg_r with k; auto. rewrite (Qcmult_comm s), (Qcmult_comm (k * R2)). exact B. }
    replace ((1 + k) * (1 + k) * R2) with (R2 + (k * R2 + k * R2) + k * k * R2) by ring.
    set (a := normsq S) in *. set (b := normsq u) in *. set (x := k * R2) in *. set (y := k * k * R2) in *. clearbody a b x y s. clear - B2 HS HU. qclra.
Qed.
Section means.
Context {X Y : Type} (T : task X Y) (d : nat) (R2 L : Qc).
Lemma sum_bounds Xs : forall Ys Yh, good T d Xs Ys -> labelling T Xs Yh ->
  (forall p y', In p (combine Xs Ys) -> t_label T (fst p) y' ->
     normsq (vsub (t_feat T (fst p) (snd p)) (t_feat T (fst p) y')) <= R2 /\ t_loss T (snd p) y' <= L) ->
  normsq (vsub (feat_sum T d Xs Ys) (feat_sum T d Xs Yh)) <= ofN (length Xs) * ofN (length Xs) * R2 /\
  (length Xs = O -> normsq (vsub (feat_sum T d Xs Ys) (feat_sum T d Xs Yh)) = 0) /\
  loss_sum T Ys Yh <= ofN (length Xs) * L.
Proof.
  induction Xs as [|x xs IH]; intros [|y ys] Yh G HL HB; try (destruct G as [Lg _]; discriminate).
  - inversion HL; subst. unfold feat_sum, loss_sum. cbn [combine map fold_right lsum length]. rewrite ofN_0.
    assert (E : normsq (vsub (vzero d) (vzero d)) = 0). { unfold normsq. rewrite dot_vsub_l by auto. ring. } rewrite E.
    split; [apply Qceq_le; ring|]. split; auto. apply Qceq_le; ring.
  - inversion HL as [|? yh ? yhs L1 L2]; subst. assert (G' := good_cons _ _ _ _ _ _ G).
    destruct (IH ys yhs G' L2) as [I1 [I2 I3]]. { intros p y' Hp. apply HB. right; auto. }
    destruct (HB (x, y) yh (or_introl eq_refl) L1) as [B1 B2]. cbn [fst snd] in B1, B2.
    assert (F : length (t_feat T x y) = d /\ length (t_feat T x yh) = d).
    { destruct G as [_ G]. destruct (G (x, y) (or_introl eq_refl)) as [K1 [_ K]]. cbn [fst snd] in *. auto. }
    destruct F as [F1 F2].
    assert (F3 := feat_sum_length T d xs ys ys G' (good_label _ _ _ _ G')). assert (F4 := feat_sum_length T d xs ys yhs G' L2).
    change (feat_sum T d (x :: xs) (y :: ys)) with (vadd (t_feat T x y) (feat_sum T d xs ys)).
    change (feat_sum T d (x :: xs) (yh :: yhs)) with (vadd (t_feat T x yh) (feat_sum T d xs yhs)).
    rewrite vsub_vadd by congruence.
    assert (VC : forall a b, length a = length b -> vadd a b = vadd b a).
    { clear. intros a b H. apply vec_ext; [rewrite !vadd_length; auto|]. intros i Hi. rewrite !get1_vadd by auto. ring. }
    rewrite VC by (rewrite !vsub_length by congruence; congruence).
    split; [|split; [cbn [length]; discriminate|]].
    + cbn [length]. rewrite ofN_S. apply normsq_vadd_le; auto.
      * rewrite !vsub_length by congruence. congruence.
      * apply ofN_nonneg.
      * intro Z. apply I2. destruct xs as [|x1 xs]; auto. exfalso. cbn [length] in Z. assert (P := ofN_pos (S (length xs)) ltac:(lia)). rewrite Z in P. discriminate P.
    + change (loss_sum T (y :: ys) (yh :: yhs)) with (t_loss T y yh + loss_sum T ys yhs). cbn [length]. rewrite ofN_S.
      replace ((1 + ofN (length xs)) * L) with (L + ofN (length xs) * L) by ring. set (a := ofN (length xs) * L) in *. set (b := loss_sum T ys yhs) in *. set (e := t_loss T y yh) in *. clearbody a b e. clear - B2 I3. qclra.
Qed.
Lemma mean_bounds bm Xs Ys Yh c : (0 < length Xs)%nat -> batch_ok bm T d Xs Ys ->
  (forall p y', In p (combine Xs Ys) -> t_label T (fst p) y' ->
     normsq (vsub (t_feat T (fst p) (snd p)) (t_feat T (fst p) y')) <= R2 /\ t_loss T (snd p) y' <= L) ->
  mean_con T d Xs Ys Yh c -> normsq (fst c) <= R2 /\ snd c <= L.
Proof.
  intros HN HB HS [HL [E1 E2]]. destruct (sum_bounds Xs Ys Yh (batch_good _ _ _ _ _ HB) HL HS) as [A [_ B]]. rewrite E1, E2.
  assert (P := ofN_pos _ HN). assert (NZ : ofN (length Xs) <> 0) by (intro Z; rewrite Z in P; discriminate P). assert (PI := Qcinv_pos _ P).
  set (N := ofN (length Xs)) in *. set (D := vsub _ _) in *. split.
  - unfold normsq. rewrite dot_vscale_l, dot_vscale_r. fold (normsq D).
    apply Qcle_trans with (/ N * (/ N * (N * N * R2))).
    + replace (/ N * (/ N * normsq D)) with (normsq D * (/ N * / N)) by ring. replace (/ N * (/ N * (N * N * R2))) with (N * N * R2 * (/ N * / N)) by ring.
      apply Qcmult_le_compat_r; auto. apply Qcmult_nonneg; apply Qclt_le_weak; auto.
    + apply Qceq_le. clearbody N. field. auto.
  - apply Qcle_trans with (N * L / N).
    + unfold Qcdiv. apply Qcmult_le_compat_r; auto. apply Qclt_le_weak; auto.
    + apply Qceq_le. clearbody N. field. auto.
Qed.
End means.

(** ** one-slack: wrappers with bounds per sample *)
Section one.
Context {X Y : Type} (T : task X Y) (d : nat) (ceq : Y -> Y -> res bool) (solve : qp_solver) (prm : os_params) (Xs : list X) (Ys : list Y) (R2 L : Qc).
Variables (bm : bmodel X Y) (sw : option (bmodel X Y)).
Hypothesis HN : (0 < length Xs)%nat.
Hypothesis HC : 0 < o_C prm.
Hypothesis HT : 0 < o_tol prm.
Hypothesis HR : 0 < R2.
Hypothesis HW : o_window prm = O.
Hypothesis HNeg : o_neg prm = None.
Hypothesis HX : qp_exact solve.
Hypothesis HB : forall p y', In p (combine Xs Ys) -> t_label T (fst p) y' ->
     normsq (vsub (t_feat T (fst p) (snd p)) (t_feat T (fst p) y')) <= R2 /\ t_loss T (snd p) y' <= L.
Let K := o_C prm * ofN (length Xs).
Let rho := qp_reg * (K * K) / (1 + 1).
Lemma rho_nonneg : 0 <= rho.
Proof. unfold rho, Qcdiv. apply Qcmult_nonneg; [|discriminate]. apply Qcmult_nonneg; [discriminate|apply Qc_sq_nonneg]. Qed.
Lemma one_rounds st reason : usable T d prm Xs Ys bm -> (forall b, sw = Some b -> usable T d prm Xs Ys b) ->
  os_fit ceq solve prm bm sw Xs Ys Cold = Ok (st, reason) ->
  ofN (length (o_curve st) - 2) * (gain K (o_tol prm) R2 - rho) <= K * L + rho /\
  (reason = OSMaxIter -> (o_max_iter prm + 1 <= length (o_curve st) + (if sw then 1 else 0))%nat) /\
  (K * L + rho < ofN (o_max_iter prm - 1 - (if sw then 1 else 0)) * (gain K (o_tol prm) R2 - rho) -> reason = OSNoConstraint).
Proof.
  intros HU HSW H. destruct (fit_rounds T d Xs Ys (batch_good _ _ _ _ _ (proj1 HU)) HN ceq solve prm R2 L rho HC HT HR HW HNeg HX rho_nonneg (or_intror (Qcle_refl _))
    (fun Yh c => mean_bounds T d R2 L bm Xs Ys Yh c HN (proj1 HU) HB) bm sw st reason HU HSW H) as [_ A]. exact A.
Qed.
Lemma one_converges st reason : batch_exact bm T d Xs Ys -> o_cache prm = O \/ sm_rescale (bm_s bm) = false ->
  (forall b, sw = Some b -> batch_exact b T d Xs Ys /\ (o_cache prm = O \/ sm_rescale (bm_s b) = false)) ->
  K * L + rho < ofN (o_max_iter prm - 1 - (if sw then 1 else 0)) * (gain K (o_tol prm) R2 - rho) ->
  os_fit ceq solve prm bm sw Xs Ys Cold = Ok (st, reason) ->
  reason = OSNoConstraint /\ exists hs, hinges T (o_w st) (combine Xs Ys) hs /\
    forall w' hs', length w' = d -> hinges T w' (combine Xs Ys) hs' ->
      primal_value (o_C prm) (o_w st) hs <= primal_value (o_C prm) w' hs' + K * o_tol prm + qp_reg * (K * K).
Proof.
  intros BE HCa HSW HM H. assert (HU : usable T d prm Xs Ys bm) by (split; [apply BE|auto]).
  assert (HSU : forall b, sw = Some b -> usable T d prm Xs Ys b). { intros b Eb. destruct (HSW b Eb) as [B1 B2]. split; [apply B1|auto]. }
  destruct (fit_rounds T d Xs Ys (batch_good _ _ _ _ _ (proj1 HU)) HN ceq solve prm R2 L rho HC HT HR HW HNeg HX rho_nonneg (or_intror (Qcle_refl _))
    (fun Yh c => mean_bounds T d R2 L bm Xs Ys Yh c HN (proj1 HU) HB) bm sw st reason HU HSU H) as [A1 [A2 [A3 A4]]].
  assert (ER : reason = OSNoConstraint) by exact (A4 HM). split; auto. subst reason.
  assert (HS : qp_sound solve). { intros p x v E. apply HX in E. destruct E as [[E _] V]. auto. }
  destruct (fit1_near_optimal T d ceq solve prm Xs Ys bm sw st HN (Qclt_le_weak _ _ HC) (Qclt_le_weak _ _ HT) HS BE HCa HSW H) as [hs [v [B1 [B2 [B3 [B4 B5]]]]]].
  exists hs. split; [exact B1|exact (B5 HX HNeg A1)].
Qed.
End one.

(** ** n-slack *)
Section many.
Context {X Y : Type} (T : task X Y) (d : nat) (yeq : Y -> Y -> bool) (solve : qp_solver) (prm : ns_params).
Variables (m : smodel X Y) (sw : option (smodel X Y)) (Xs : list X) (Ys : list Y).
Lemma many_finite (labs : X * Y -> list Y) old st curve primal reason : length Xs = length Ys -> sm_size m = d ->
  oracle_ok m T d (combine Xs Ys) -> (forall m', sw = Some m' -> oracle_ok m' T d (combine Xs Ys)) ->
  ns_window prm = O -> (forall a, yeq a a = true) ->
  (forall p y', In p (combine Xs Ys) -> t_label T (fst p) y' -> In y' (labs p)) ->
  ns_fit yeq solve prm m sw Xs Ys None old = Ok (st, curve, primal, reason) ->
  (length curve <= list_sum (map (fun p => length (labs p)) (combine Xs Ys)) + 2 + (if sw then 1 else 0))%nat /\
  (reason = MaxIter -> (ns_max_iter prm <= list_sum (map (fun p => length (labs p)) (combine Xs Ys)) + (if sw then 1 else 0))%nat).
Proof. intros HXY Hd HO HS HW HY HL H. exact (nfit_finite T d yeq solve prm m sw Xs Ys HXY Hd HO HS labs old st curve primal reason HW HY HL H). Qed.
Lemma many_converges (labs : X * Y -> list Y) old st curve primal reason : 0 <= ns_C prm -> length Xs = length Ys -> sm_size m = d ->
  oracle_exact m T d (combine Xs Ys) -> (forall m', sw = Some m' -> oracle_exact m' T d (combine Xs Ys)) ->
  ns_window prm = O -> ns_neg prm = None -> ns_tol prm <= 0 -> qp_exact solve -> answers_all solve (ns_C prm) (length Xs) T (combine Xs Ys) ->
  (forall a, yeq a a = true) -> yeq_ok T yeq (combine Xs Ys) -> zero_loss_same T (combine Xs Ys) ->
  (forall p y', In p (combine Xs Ys) -> t_label T (fst p) y' -> In y' (labs p)) ->
  (list_sum (map (fun p => length (labs p)) (combine Xs Ys)) + (if sw then 1 else 0) < ns_max_iter prm)%nat ->
  ns_fit yeq solve prm m sw Xs Ys None old = Ok (st, curve, primal, reason) ->
  reason = NoNewConstraint /\
  forall hs w' hs', hinges T (st_w st) (combine Xs Ys) hs -> length w' = d -> hinges T w' (combine Xs Ys) hs' ->
    primal_value (ns_C prm) (st_w st) hs <= primal_value (ns_C prm) w' hs' +
       ns_C prm * (ofN (length Xs) * small) + qp_reg * (ofN (length Xs) * (ns_C prm * ns_C prm)).
Proof.
  intros HC HXY Hd HO HOS HW HNeg HT HX HA HY HYO HZ HL HM H.
  assert (HO' := NSlackProofs3.exact_is_ok _ _ _ _ HO). assert (HOS' : forall m', sw = Some m' -> oracle_ok m' T d (combine Xs Ys)) by (intros m' E; apply NSlackProofs3.exact_is_ok; auto).
  destruct (many_finite labs old st curve primal reason HXY Hd HO' HOS' HW HY HL H) as [_ F].
  destruct (nfit_mono T d yeq solve prm m sw Xs Ys old st curve primal reason HC HXY Hd HO' HOS' HW HNeg HX HY HA H) as [_ M].
  assert (ER : reason = NoNewConstraint). { destruct reason; [reflexivity|exfalso; exact (M HT eq_refl)|exfalso; specialize (F eq_refl); lia]. }
  split; auto. subst reason. intros hs w' hs' H1 H2 H3.
  refine (fit_near_optimal T d yeq solve prm Xs Ys _ _ m sw old st curve primal HX HNeg Hd HO HOS HYO HZ H hs w' hs' H1 H2 H3); auto.
Qed.
Lemma many_tol hs old st curve primal : 0 <= ns_C prm -> length Xs = length Ys -> qp_exact solve -> 0 < ns_tol prm -> sm_size m = d ->
  oracle_ok m T d (combine Xs Ys) -> (forall m', sw = Some m' -> oracle_ok m' T d (combine Xs Ys)) ->
  hinges T (vzero d) (combine Xs Ys) hs ->
  ns_fit yeq solve prm m sw Xs Ys None old = Ok (st, curve, primal, MaxIter) ->
  ofN (ns_max_iter prm - 2) * ns_tol prm <= ns_C prm * lsum hs + (if sw then ns_C prm * lsum hs + ns_tol prm else 0).
Proof.
  intros HC HXY HX HT Hd HO HOS Hh H. assert (A := nfit_tol T d yeq solve prm Xs Ys HC HXY HX HT m HO hs Hh sw old st curve primal Hd HOS H).
  destruct sw; exact A.
Qed.
End many.

(** ** examples *)
Definition ex25_one (iter : nat) := OSParams 1 iter (1 / (1 + 1)) true false None 2 (Q2Qc (1 # 100)) 0 TolAuto.
Definition ex25_many (iter : nat) (tol : Qc) := NSParams 1 iter tol true false None (-1) (Q2Qc (1 # 1000)) 0.
Lemma ex25_bounds p y' : In p (combine ex9_X ex9_Y) -> t_label ex9_task (fst p) y' ->
  normsq (vsub (t_feat ex9_task (fst p) (snd p)) (t_feat ex9_task (fst p) y')) <= 1 + 1 /\ t_loss ex9_task (snd p) y' <= 1.
Proof. intros [<-|[]] L. cbn [t_label ex9_task mc_task fst] in L. destruct y' as [|[|y']]; [| |lia]; split; vm_compute; discriminate. Qed.
Lemma ex25_usable iter : batch_exact ex10_bm ex9_task 2 ex9_X ex9_Y /\ usable ex9_task 2 (ex25_one iter) ex9_X ex9_Y ex10_bm.
Proof. destruct (ex10_ok iter 2) as [_ [_ [_ [_ [A [B1 B2]]]]]]. split; auto. split; auto. Qed.
Lemma ex25_answers : answers_all ex9_solver 1 (length ex9_X) ex9_task (combine ex9_X ex9_Y).
Proof.
  intros cs p HW HP. unfold working_set in HW. cbn [combine ex9_X ex9_Y] in HW. inversion HW as [|s c ? ? [V [P N]] HW' E1 E2]; subst. inversion HW'; subst. clear HW HW'.
  destruct c as [|c1 c]; [discriminate HP|].
  assert (ONE : forall e, In e (c1 :: c) -> fst (fst e) = 1%nat).
  { intros e He. rewrite Forall_forall in V, P. specialize (V e He). specialize (P e He). destruct e as [[yh dl] l]. destruct V as [V1 [_ V3]]. cbn [fst snd] in *.
    cbn [t_label ex9_task mc_task] in V1. destruct yh as [|[|yh]]; [|reflexivity|lia]. rewrite V3 in P. discriminate P. }
  destruct c as [|c2 c].
  - destruct c1 as [[yh dl] l]. rewrite Forall_forall in V. specialize (V _ (or_introl eq_refl)). destruct V as [_ [-> ->]].
    assert (E := ONE _ (or_introl eq_refl)). cbn [fst] in E. subst yh.
    assert (EP : p = QP (Mat 1 1 [[1 + 1]]) [- (1)] (Mat 2 1 [[- (1)]; [1]]) [0; 1] (Mat 0 1 []) []).
    { assert (OK : forall a b : qp, Ok a = Ok b -> b = a) by congruence. apply OK. rewrite <- HP. clear HP.
      assert (C0 : forall a b : Qc, this a = this b -> a = b) by (intros; apply Qc_is_canon; congruence).
      unfold n_slack_problem. vm_compute. repeat f_equal; apply C0; reflexivity. }
    rewrite EP. vm_compute. discriminate.
  - exfalso. cbn [map] in N. inversion N as [|? ? N1 N2]; subst. apply N1. left. rewrite (ONE c1), (ONE c2); auto. right; left; auto. left; auto.
Qed.

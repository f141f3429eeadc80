(** The rate of batch Frank-Wolfe. *)
From Verif Require Import Proofs.Arrays Proofs.LossProofs Proofs.CRFProofs Proofs.LearnerProofs
  Proofs.UnstructuredProofs2 Proofs.QPProofs Proofs.OneSlackProofs Proofs.OneSlackProofs2 Model.FrankWolfe Spec.FWRateSpec
  Proofs.FrankWolfeProofs Proofs.FrankWolfeProofs2 Proofs.FrankWolfeProofs3 Proofs.FrankWolfeProofs4 Proofs.FWRate Proofs.FWRate2.
Notation mix := FrankWolfe.mix.

Lemma ofN_le' a b : (a <= b)%nat -> ofN a <= ofN b.
Proof. intro H. replace b with (a + (b - a))%nat by lia. rewrite ofN_plus. assert (P := ofN_nonneg (b - a)). set (x := ofN a). set (y := ofN (b - a)) in *. clearbody x y. qclra. Qed.
Lemma sq_two_step a : 0 <= a -> (a + 1) * (a + 1 + (1 + 1)) <= (a + (1 + 1)) * (a + (1 + 1)).
Proof. intro H. apply Qcle_minus_iff. replace (_ + - _) with 1 by ring. discriminate. Qed.

Section batch.
  Context {X Y : Type} (T : task X Y) (d : nat) (prm : fw_params) (Xs : list X) (Ys : list Y) (bm : bmodel X Y) (R L : Qc).
  Notation SS := (combine Xs Ys). Notation n := (ofN (length Xs)). Notation C := (fw_C prm).
  Hypothesis HN : (0 < length Xs)%nat.
  Hypothesis HCP : 0 < C.
  Hypothesis HU : fw_usable T d Xs Ys bm.
  Hypothesis HE : batch_exact bm T d Xs Ys.
  Hypothesis HB : bounded T R L SS.
  Notation D w l := (dual_objective C (length Xs) w l).
  Notation K := (batch_curvature (length Xs) C R).
  Notation nu := (C * n).
  Notation P := (prim T C Xs Ys bm).
  Notation low := (bound T d prm Xs Ys).
  Lemma HC : 0 <= C. Proof. apply Qclt_le_weak, HCP. Qed.
  Lemma nu_pos : 0 < nu. Proof. apply Qcmult_pos; auto. apply ofN_pos; auto. Qed.
  Lemma K_pos : 0 < K.
  Proof.
    unfold batch_curvature. assert (A : 0 <= ofN 4 * (C * n) * (R * R)). { apply Qcmult_nonneg; [|apply Qc_sq_nonneg]. apply Qcmult_nonneg; [apply ofN_nonneg|apply Qclt_le_weak, nu_pos]. }
    assert (B := fw_eps_pos). set (a := ofN 4 * (C * n) * (R * R)) in *. set (e := fw_eps) in *. clearbody a e. clear - A B. qclra.
  Qed.
  Lemma low_prim p : low p <-> forall w, length w = d -> p <= P w.
  Proof.
    split; intro H.
    - intros w Hw. apply H; auto. eapply Hf_hinges; eauto.
    - intros w hs Hw HH. rewrite (Hf_unique T d Xs Ys bm HU HE w hs Hw HH). apply H; auto.
  Qed.
  Definition feas (st : fw_bstate) : Prop := dual_feasible T d C SS (fb_w st) (fb_l st).
  Lemma rate_step it st : feas st -> exists st' gap, fw_batch_step prm bm Xs Ys (feat_sum T d Xs Ys) it st = Ok (st', gap) /\ feas st' /\
    nu * gap = dgap T C Xs Ys bm (fb_w st) (fb_l st) /\ fb_primal st' = fb_primal st ++ [P (fb_w st)] /\ fb_curve st' = fb_curve st ++ [D (fb_w st) (fb_l st)] /\
    (forall h, 0 <= h -> h <= 1 -> fw_line prm = true \/ h = (1 + 1) / (ofN it + (1 + 1)) ->
       D (fb_w st) (fb_l st) + nu * (h * gap - h * h * K / (1 + 1)) <= D (fb_w st') (fb_l st')) /\
    (fw_line prm = true -> normsq (vsub (fb_w st') (fb_w st)) <= nu * gap).
  Proof.
    intro BF. assert (HCZ : C <> 0) by (intro Z; rewrite Z in HCP; discriminate). assert (G := HG T d Xs Ys bm HU). assert (Hw := feasible_length _ _ _ _ _ _ (sized' T d Xs Ys bm HU) BF).
    destruct (exact_hinges T d Xs Ys bm (fb_w st) G HE Hw) as [Yh [EY [LY HH]]].
    destruct (usable_joint T d Xs Ys bm HU) as [J1 J2].
    destruct (proj1 (proj2 (proj2 (proj2 (proj1 HU)))) Yh LY) as [_ B2].
    assert (L1 := feat_sum_length T d Xs Ys Ys G (good_label _ _ _ _ G)). assert (L2 := feat_sum_length T d Xs Ys Yh G LY).
    assert (LYY : length (combine Ys Yh) = length Xs). { rewrite combine_length. rewrite <- (proj1 G). assert (FL := Forall2_len _ _ _ LY). lia. }
    assert (NZ := ofN_neq0 _ HN). assert (CP := nu_pos). assert (CN : nu <> 0). { intro E. rewrite E in CP. discriminate. }
    set (ws := vscale C (vsub (feat_sum T d Xs Ys) (feat_sum T d Xs Yh))). set (ls := loss_sum T Ys Yh / n).
    assert (VF : dual_feasible T d C SS ws ls) by (apply (vertex_feasible T d prm Xs Ys bm HU Yh LY)).
    assert (LWS : length ws = d). { unfold ws. rewrite vscale_length, vsub_length; congruence. }
    set (gap := 1 / nu * dot (vsub (fb_w st) ws) (fb_w st) - fb_l st + ls).
    set (B := normsq (vsub (fb_w st) ws) / nu).
    set (g := if fw_line prm then clip01 (gap / (B + fw_eps)) else (1 + 1) / (ofN it + (1 + 1))).
    assert (GR : 0 <= g /\ g <= 1). { unfold g. destruct (fw_line prm); [apply clip01_range|apply rho_range]. } destruct GR as [G0 G1].
    assert (EH : Hf T Xs Ys bm (fb_w st) = margins T (fb_w st) Xs Ys Yh) by (unfold Hf; rewrite EY; reflexivity).
    assert (SM := sum_margins T d (fb_w st) Xs Hw Ys Yh G LY).
    assert (EG : nu * gap = dgap T C Xs Ys bm (fb_w st) (fb_l st)).
    { unfold dgap, prim. rewrite EH. unfold gap, primal_value, dual_objective. rewrite <- SM. rewrite (dot_comm _ (fb_w st)), dot_vsub_r by congruence. unfold ws. rewrite dot_vscale_r, dot_vsub_r by congruence.
      unfold ls, normsq. set (z := n) in *. set (a := dot (fb_w st) (fb_w st)). set (b := dot (fb_w st) (feat_sum T d Xs Ys)). set (c := dot (fb_w st) (feat_sum T d Xs Yh)). set (q := loss_sum _ _ _).
      clearbody z a b c q. field. repeat (split; [first [exact NZ|exact HCZ|discriminate]|]). first [exact NZ|exact HCZ|discriminate]. }
    assert (GN : 0 <= gap).
    { assert (Q := dgap_nonneg T d C Xs Ys bm HN HC HU HE _ _ BF). rewrite <- EG in Q. replace gap with (nu * gap * / nu) by (field; split; [exact NZ|exact HCZ]). apply Qcmult_nonneg; auto. apply Qclt_le_weak, Qcinv_pos; auto. }
    assert (MV : forall h, D (vmix h (fb_w st) ws) (mix h (fb_l st) ls) = D (fb_w st) (fb_l st) + nu * (h * gap - h * h * B / (1 + 1))).
    { intro h. assert (E := dual_move C (length Xs) (fb_w st) (fb_l st) (fb_w st) ws (fb_l st) ls h eq_refl ltac:(congruence)).
      replace (fb_l st - fb_l st + mix h (fb_l st) ls) with (mix h (fb_l st) ls) in E by ring.
      replace (vadd (vsub (fb_w st) (fb_w st)) (vmix h (fb_w st) ws)) with (vmix h (fb_w st) ws) in E.
      2:{ apply vec_ext; [rewrite vadd_length; rewrite vsub_length, ?vmix_length by congruence; rewrite ?vmix_length by congruence; congruence|].
          intros i _. rewrite get1_vadd by (rewrite vsub_length, vmix_length; congruence). rewrite get1_vsub by congruence. ring. }
      rewrite E. f_equal. unfold gap, B. set (z := n) in *. set (a := dot _ _). set (b := normsq _). clearbody z a b. field. repeat (split; [first [exact NZ|exact HCZ|discriminate]|]). first [exact NZ|exact HCZ|discriminate]. }
    assert (BN : 0 <= B). { unfold B, Qcdiv. apply Qcmult_nonneg; [apply normsq_nonneg|]. apply Qclt_le_weak, Qcinv_pos, CP. }
    assert (BK : B + fw_eps <= K).
    { unfold batch_curvature. apply Qcplus_le_compat; [|apply Qcle_refl]. unfold B. apply Qcdiv_le_l; auto. eapply Qcle_trans; [apply (dist_feasible T d C Xs Ys bm R L HC HU HB _ _ _ _ BF VF)|]. apply Qceq_le. change (ofN 4) with (ofN (2 + 2)). rewrite ofN_plus. change (ofN 2) with (1 + 1). ring. }
    eexists _, gap. split; [|split; [|split; [exact EG|split; [|split; [|split]]]]].
    - unfold fw_batch_step. rewrite EY. cbn [bind]. rewrite (J2 Yh LY). cbn [bind]. unfold np_vsub. rewrite L1, L2, Nat.eqb_refl. cbn [bind].
      rewrite B2. cbn [bind]. rewrite map_length, LYY. destruct (Nat.eqb_spec (length Xs) 0) as [Z|_]; [lia|]. cbn [negb ensure bind].
      fold (loss_sum T Ys Yh). fold ls. rewrite vscale_length, vsub_length by congruence. rewrite Hw, L1, Nat.eqb_refl. cbn [bind]. fold ws.
      destruct (Qceqb nu 0) eqn:EZ; [exfalso; apply CN; apply Qceqb_eq; exact EZ|]. cbn [negb ensure bind].
      rewrite np_dot_ok by (rewrite vsub_length; congruence). cbn [bind]. fold gap B g. reflexivity.
    - cbn [fb_w fb_l]. unfold feas. cbn [fb_w fb_l]. apply feasible_mix; auto. apply (sized' T d Xs Ys bm HU).
    - cbn [fb_primal]. f_equal. f_equal. rewrite (fw_dual_eq prm Xs). unfold dgap in EG. replace (gap * n * C) with (nu * gap) by ring. rewrite EG. ring.
    - cbn [fb_curve]. f_equal. f_equal. apply (fw_dual_eq prm Xs).
    - cbn [fb_w fb_l]. intros h H0 H1 HH'. rewrite MV. apply Qcplus_le_compat; [apply Qcle_refl|]. apply mult_le_l; [apply Qclt_le_weak; auto|].
      assert (GEN : h * gap - h * h * K / (1 + 1) <= h * gap - h * h * B / (1 + 1)).
      { assert (Q : h * h * B / (1 + 1) <= h * h * K / (1 + 1)). { unfold Qcdiv. apply Qcmult_le_compat_r; [|discriminate]. apply mult_le_l; [apply Qc_sq_nonneg|]. assert (EP := fw_eps_pos). set (e := fw_eps) in *. set (k := K) in *. clearbody e k. clear - BK EP. qclra. }
        set (a := h * gap) in *. set (b := h * h * B / (1 + 1)) in *. set (c := h * h * K / (1 + 1)) in *. clearbody a b c. qclra. }
      destruct (fw_line prm) eqn:EL.
      + exact (line_beats gap B K h BN BK H0 H1).
      + destruct HH' as [HH'|HH']; [discriminate|]. unfold g. rewrite <- HH'. exact GEN.
    - cbn [fb_w]. intro EL. assert (EV : vsub (vmix g (fb_w st) ws) (fb_w st) = vscale (- g) (vsub (fb_w st) ws)).
      { apply vec_ext; [rewrite vscale_length, !vsub_length, vmix_length by (rewrite ?vmix_length; congruence); reflexivity|]. intros i _. rewrite get1_vsub, get1_vmix, get1_vscale, get1_vsub by (rewrite ?vmix_length; congruence). unfold mix. ring. }
      rewrite EV. unfold normsq. rewrite dot_vscale_l, dot_vscale_r. fold (normsq (vsub (fb_w st) ws)).
      replace (- g * (- g * normsq (vsub (fb_w st) ws))) with (nu * (g * g * B)) by (unfold B; field; auto). apply mult_le_l; [apply Qclt_le_weak; auto|].
      unfold g. rewrite EL. eapply (proj2 (line_gain gap B 0 (B + fw_eps) GN BN (Qcle_refl _) (Qcle_refl _) GN _)).
      Unshelve. assert (EP := fw_eps_pos). set (e := fw_eps) in *. clearbody e. clear - BN EP. qclra.
  Qed.
  (** the standard recursion *)
  Definition rb (k : nat) : Qc := nu * ((1 + 1) * K / (ofN k + (1 + 1))).
  Lemma rate_next it p Dv D' gap : (forall h, 0 <= h -> h <= 1 -> h = (1 + 1) / (ofN it + (1 + 1)) -> Dv + nu * (h * gap - h * h * K / (1 + 1)) <= D') -> p <= Dv + nu * gap ->
    ((0 < it)%nat -> p <= Dv + rb it) -> p <= D' + rb (S it).
  Proof.
    intros HS HP HI. destruct (rho_range it) as [H0 H1]. set (h := (1 + 1) / (ofN it + (1 + 1))) in *. specialize (HS h H0 H1 eq_refl).
    assert (KP := K_pos). assert (NP := nu_pos). assert (A := ofN_nonneg it).
    assert (Q : (1 - h) * (p - Dv) + h * (p - Dv) = p - Dv) by ring.
    assert (Q1 : h * (p - Dv) <= h * (nu * gap)). { apply mult_le_l; auto. set (v := nu * gap) in *. clearbody v. qclra. }
    assert (Q2 : (1 - h) * (p - Dv) + nu * (h * h * K / (1 + 1)) <= rb (S it)).
    { destruct it as [|it].
      - unfold h. rewrite ofN_0. replace ((1 + 1) / (0 + (1 + 1))) with 1 by (field; discriminate). unfold rb. rewrite ofN_S, ofN_0.
        replace ((1 - 1) * (p - Dv) + nu * (1 * 1 * K / (1 + 1))) with (nu * (K / (1 + 1))) by (unfold Qcdiv; ring). apply mult_le_l; [apply Qclt_le_weak; auto|].
        set (k := K) in *. clearbody k. replace ((1 + 1) * k / (1 + 0 + (1 + 1))) with (k / (1 + 1) + k * / ofN 6). 2:{ change (ofN 6) with (Q2Qc (6 # 1)). apply Qc_is_canon. cbn -[Qplus Qmult Qdiv Qinv]. unfold Qdiv. rewrite !Qred_correct. field. }
        assert (Z : 0 <= k * / ofN 6). { apply Qcmult_nonneg; [apply Qclt_le_weak; auto|discriminate]. } set (a := k / (1 + 1)). set (b := k * / ofN 6) in *. clearbody a b. qclra.
      - specialize (HI ltac:(lia)). apply Qcle_trans with ((1 - h) * rb (S it) + nu * (h * h * K / (1 + 1))).
        + apply Qcplus_le_compat; [|apply Qcle_refl]. apply mult_le_l; [qclra|]. set (v := rb (S it)) in *. clearbody v. qclra.
        + unfold rb, h. rewrite (ofN_S (S it)). set (a := ofN (S it)) in *. set (k := K) in *. clearbody a k.
          assert (AP : 0 < a + (1 + 1)) by qclra. assert (AP2 : 0 < 1 + a + (1 + 1)) by qclra.
          assert (AZ : a + (1 + 1) <> 0) by (intro Z; rewrite Z in AP; discriminate). assert (AZ2 : 1 + a + (1 + 1) <> 0) by (intro Z; rewrite Z in AP2; discriminate).
          replace ((1 - (1 + 1) / (a + (1 + 1))) * (nu * ((1 + 1) * k / (a + (1 + 1)))) + nu * ((1 + 1) / (a + (1 + 1)) * ((1 + 1) / (a + (1 + 1))) * k / (1 + 1)))
            with (nu * ((1 + 1) * k * ((a + 1) / ((a + (1 + 1)) * (a + (1 + 1)))))) by (field; repeat split; auto; discriminate).
          apply mult_le_l; [apply Qclt_le_weak; auto|]. replace ((1 + 1) * k / (1 + a + (1 + 1))) with ((1 + 1) * k * (1 / (1 + a + (1 + 1)))) by (field; auto).
          apply mult_le_l; [apply Qcmult_nonneg; [discriminate|apply Qclt_le_weak; auto]|]. apply Qcdiv_le_l; [apply Qcmult_pos; auto|].
          replace (1 / (1 + a + (1 + 1)) * ((a + (1 + 1)) * (a + (1 + 1)))) with ((a + (1 + 1)) * (a + (1 + 1)) / (1 + a + (1 + 1))) by (field; auto).
          replace (a + 1) with ((a + 1) * (a + 1 + (1 + 1)) * / (1 + a + (1 + 1))) by (field; auto). unfold Qcdiv. apply Qcmult_le_compat_r; [apply sq_two_step; auto|]. apply Qclt_le_weak, Qcinv_pos; auto. }
    replace (nu * (h * gap - h * h * K / (1 + 1))) with (h * (nu * gap) - nu * (h * h * K / (1 + 1))) in HS by ring.
    set (x := nu * (h * h * K / (1 + 1))) in *. set (y := h * (nu * gap)) in *. set (z := (1 - h) * (p - Dv)) in *. set (v := h * (p - Dv)) in *. set (u := rb (S it)) in *. clearbody x y z v u.
    clear - HS Q Q1 Q2. qclra.
  Qed.
  Definition binv' (st : fw_bstate) : Prop := feas st /\ length (fb_primal st) = length (fb_curve st) /\
    (forall p, low p -> (0 < length (fb_curve st))%nat -> p <= D (fb_w st) (fb_l st) + rb (length (fb_curve st))) /\
    (forall p j, low p -> (0 < j < length (fb_curve st))%nat -> p <= get1 (fb_curve st) j + rb j).
  Lemma rate_step_inv st : binv' st -> exists st' gap, fw_batch_step prm bm Xs Ys (feat_sum T d Xs Ys) (length (fb_curve st)) st = Ok (st', gap) /\ binv' st' /\
    nu * gap = dgap T C Xs Ys bm (fb_w st) (fb_l st) /\ fb_primal st' = fb_primal st ++ [P (fb_w st)] /\ fb_curve st' = fb_curve st ++ [D (fb_w st) (fb_l st)] /\
    (fw_line prm = true -> normsq (vsub (fb_w st') (fb_w st)) <= nu * gap) /\
    (fw_line prm = true -> forall h, 0 <= h -> h <= 1 -> D (fb_w st) (fb_l st) + nu * (h * gap - h * h * K / (1 + 1)) <= D (fb_w st') (fb_l st')).
  Proof.
    intros [I1 [I2 [I3 I4]]]. destruct (rate_step (length (fb_curve st)) st I1) as [st' [gap [E [F [EG [EP [EC [S1 S2]]]]]]]]. exists st', gap. split; auto.
    split; [|split; [auto|split; [auto|split; [auto|split; [auto|]]]]].
    - split; [exact F|]. rewrite EP, EC, !app_length. cbn [length]. split; [lia|]. split.
      + intros p HP _. rewrite Nat.add_1_r. apply (rate_next (length (fb_curve st)) p (D (fb_w st) (fb_l st)) _ gap); auto.
        assert (Q := proj1 (low_prim p) HP (fb_w st) (feasible_length _ _ _ _ _ _ (sized' T d Xs Ys bm HU) I1)). rewrite EG. unfold dgap. set (a := P (fb_w st)) in *. set (b := D (fb_w st) (fb_l st)). clearbody a b. clear - Q. qclra.
      + intros p j HP Hj. destruct (Nat.eq_dec j (length (fb_curve st))) as [->|NE].
        * unfold get1. rewrite app_nth2, Nat.sub_diag by lia. cbn [nth]. apply I3; auto. lia.
        * unfold get1. rewrite app_nth1 by lia. apply I4; auto. lia.
    - intros HL h H0 H1. apply S1; auto.
  Qed.
  Lemma rate_loop k : forall st, binv' st -> exists st', fw_batch_loop prm bm Xs Ys (feat_sum T d Xs Ys) k (length (fb_curve st)) st = Ok st' /\ binv' st' /\
    (length (fb_curve st) <= length (fb_curve st') <= length (fb_curve st) + k)%nat /\ ((0 < k)%nat -> (length (fb_curve st) < length (fb_curve st'))%nat).
  Proof.
    induction k as [|k IH]; intros st HI; cbn [fw_batch_loop]. { exists st. repeat split; auto; try lia; apply HI. }
    destruct (rate_step_inv st HI) as [st1 [gap [E [I1 [_ [_ [EC _]]]]]]]. rewrite E. cbn [bind fst snd].
    assert (L1 : length (fb_curve st1) = S (length (fb_curve st))) by (rewrite EC, app_length; cbn; lia). destruct (Qcltb gap (fw_tol prm)).
    - exists st1. split; auto. split; auto. lia.
    - rewrite <- L1. destruct (IH st1 I1) as [st2 [E2 [I2 [N2 _]]]]. exists st2. split; auto. split; auto. lia.
  Qed.
  Definition bstart : fw_bstate := FWBState (vzero d) 0 [] [].
  Lemma bstart_inv : binv' bstart.
  Proof. split; [apply (zero_feasible T d prm Xs Ys bm HU)|]. split; [reflexivity|]. split; intros p; cbn [fb_curve bstart length]; intros; lia. Qed.
  Lemma frank_batch_eq : frank_wolfe_batch prm bm Xs Ys (vzero d) = fw_batch_loop prm bm Xs Ys (feat_sum T d Xs Ys) (fw_max_iter prm) (length (fb_curve bstart)) bstart.
  Proof. unfold frank_wolfe_batch. rewrite (proj1 (usable_joint T d Xs Ys bm HU)). reflexivity. Qed.
  Lemma batch_rate sched w l primal curve : fw_batch prm = true -> fw_fit prm bm Xs Ys sched None = Ok (w, l, primal, curve) ->
    let k := (length curve - 1)%nat in
    (0 < k <= fw_max_iter prm)%nat /\
    (forall p, (forall w' hs', length w' = d -> hinges T w' SS hs' -> p <= primal_value C w' hs') ->
      (forall j, (0 < j < k)%nat -> p <= get1 curve j + nu * ((1 + 1) * K / (ofN j + (1 + 1)))) /\
      forall w' hs', length w' = d -> hinges T w' SS hs' -> normsq (vsub w w') / (1 + 1) <= primal_value C w' hs' - p + nu * ((1 + 1) * K / (ofN k + (1 + 1)))).
  Proof.
    intros HBt H k. apply (fit_result T d prm Xs Ys bm HU) in H. destruct H as [p0 [c [o [-> [Ec [NE [_ [[_ [_ [s [ES [-> [-> ->]]]]]]|[E _]]]]]]]]]; [|congruence].
    rewrite frank_batch_eq in ES. destruct (rate_loop (fw_max_iter prm) bstart bstart_inv) as [s' [ES' [[I1 [I2 [I3 I4]]] [N1 N2]]]]. assert (s' = s) by congruence. subst s'.
    assert (EK : k = length (fb_curve s)) by (unfold k; rewrite Ec, app_length; cbn [length]; lia). assert (KP : (0 < k)%nat) by (rewrite EK; destruct (fb_curve s); [congruence|cbn; lia]).
    cbn [bstart fb_curve length] in N1. split; [lia|]. intros p HP. split.
    - intros j Hj. rewrite Ec. unfold get1. rewrite app_nth1 by lia. apply I4; auto. lia.
    - intros w' hs' Hw' HH. assert (Q := weak_dist T d C Xs Ys bm HN HC HU HE _ _ w' I1 Hw'). unfold prim in Q. rewrite <- (Hf_unique T d Xs Ys bm HU HE w' hs' Hw' HH) in Q.
      specialize (I3 p HP ltac:(lia)). rewrite <- EK in I3. unfold rb in I3. set (a := normsq _ / _) in *. set (b := primal_value _ _ _) in *. set (c0 := D _ _) in *. match type of I3 with _ <= _ + ?x => set (r := x) in * end. clearbody a b c0 r. clear - I3 Q. qclra.
  Qed.
  (** ** stopping *)
  Section stop.
    Hypothesis HL : fw_line prm = true.
    Hypothesis HT : 0 < fw_tol prm.
    Hypothesis HTK : fw_tol prm <= K.
    Variables k0 j0 : nat.
    Hypothesis Hk0 : (0 < k0)%nat.
    Hypothesis Hj0 : ofN 4 * (K * K) < ofN j0 * (fw_tol prm * fw_tol prm) * (ofN k0 + (1 + 1)).
    Notation inc := (nu * (fw_tol prm * fw_tol prm / ((1 + 1) * K))).
    Definition sinv (st : fw_bstate) : Prop := binv' st /\ ((k0 <= length (fb_curve st))%nat -> exists D0,
      D0 + ofN (length (fb_curve st) - k0) * inc <= D (fb_w st) (fb_l st) /\ forall p, low p -> p <= D0 + rb k0).
    Lemma inc_pos : 0 < inc.
    Proof. apply Qcmult_pos; [apply nu_pos|]. unfold Qcdiv. apply Qcmult_pos; [apply Qcmult_pos; auto|]. apply Qcinv_pos. apply Qcmult_pos; [reflexivity|apply K_pos]. Qed.
    Lemma sinv_early st : sinv st -> (length (fb_curve st) < k0 + j0)%nat.
    Proof.
      intros [HI HS]. destruct (le_lt_dec (k0 + j0) (length (fb_curve st))) as [Q|Q]; [|exact Q]. exfalso. destruct (HS ltac:(lia)) as [D0 [A B]].
      assert (Lo : low (D (fb_w st) (fb_l st))). { apply (feasible_bound T d prm Xs Ys bm HN HC HU). apply HI. } specialize (B _ Lo).
      assert (IP := inc_pos). assert (KP := K_pos). assert (NP := nu_pos). assert (O := ofN_le' j0 (length (fb_curve st) - k0) ltac:(lia)).
      assert (O2 := Qcmult_le_compat_r _ _ inc O (Qclt_le_weak _ _ IP)).
      assert (S : ofN j0 * inc <= rb k0). { set (x := ofN j0 * inc) in *. set (y := ofN (_ - _) * inc) in *. set (z := D _ _) in *. set (r := rb k0) in *. clearbody x y z r. clear - A B O2. qclra. }
      unfold rb in S. assert (A0 := ofN_nonneg k0). set (a := ofN k0) in *. set (b := ofN j0) in *. set (k := K) in *. set (u := nu) in *. set (t := fw_tol prm) in *. clearbody a b k u t.
      assert (AP : 0 < a + (1 + 1)) by (clear - A0; qclra). assert (AZ : a + (1 + 1) <> 0) by (intro Z; rewrite Z in AP; discriminate). assert (KZ : k <> 0) by (intro Z; rewrite Z in KP; discriminate). assert (UZ : u <> 0) by (intro Z; rewrite Z in NP; discriminate).
      assert (M : 0 <= (1 + 1) * k * (a + (1 + 1)) / u). { unfold Qcdiv. apply Qcmult_nonneg; [|apply Qclt_le_weak, Qcinv_pos; auto]. apply Qcmult_nonneg; [|apply Qclt_le_weak; auto]. apply Qcmult_nonneg; [discriminate|apply Qclt_le_weak; auto]. }
      assert (S2 := Qcmult_le_compat_r _ _ _ S M).
      replace (b * (u * (t * t / ((1 + 1) * k))) * ((1 + 1) * k * (a + (1 + 1)) / u)) with (b * (t * t) * (a + (1 + 1))) in S2 by (field; repeat split; auto; discriminate).
      replace (u * ((1 + 1) * k / (a + (1 + 1))) * ((1 + 1) * k * (a + (1 + 1)) / u)) with (ofN 4 * (k * k)) in S2. 2:{ change (ofN 4) with (ofN (2 + 2)). rewrite ofN_plus. change (ofN 2) with (1 + 1). field. auto. }
      revert S2. apply Qclt_not_le. exact Hj0.
    Qed.
    Lemma sinv_step st st' gap : sinv st -> fw_batch_step prm bm Xs Ys (feat_sum T d Xs Ys) (length (fb_curve st)) st = Ok (st', gap) -> Qcltb gap (fw_tol prm) = false -> sinv st'.
    Proof.
      intros [HI HS] E ET. destruct (rate_step_inv st HI) as [st1 [gap1 [E1 [I1 [EG [_ [EC [_ SL]]]]]]]]. rewrite E in E1. assert (st1 = st' /\ gap1 = gap) as [-> ->] by (split; congruence). clear E1.
      unfold Qcltb in ET. apply Bool.negb_false_iff, Qcleb_le in ET. split; auto. intro Hk. assert (KP := K_pos).
      assert (L1 : length (fb_curve st') = S (length (fb_curve st))) by (rewrite EC, app_length; cbn; lia). rewrite L1 in *.
      destruct (Nat.eq_dec k0 (S (length (fb_curve st)))) as [E0|NE].
      - exists (D (fb_w st') (fb_l st')). rewrite E0 at 1. rewrite Nat.sub_diag, ofN_0. split; [apply Qceq_le; ring|]. intros p HP. rewrite E0. rewrite <- L1. apply I1; auto. lia.
      - destruct (HS ltac:(lia)) as [D0 [A B]]. exists D0. split; auto. rewrite Nat.sub_succ_l by lia. rewrite ofN_S.
        set (h := fw_tol prm / K). assert (KZ : K <> 0) by (intro Z; rewrite Z in KP; discriminate).
        assert (H0 : 0 <= h). { unfold h, Qcdiv. apply Qcmult_nonneg; [apply Qclt_le_weak; auto|apply Qclt_le_weak, Qcinv_pos; auto]. }
        assert (H1 : h <= 1). { unfold h. apply Qcdiv_le_l; auto. replace (1 * K) with K by ring. auto. }
        assert (Q := SL HL h H0 H1). assert (Q2 : inc <= nu * (h * gap - h * h * K / (1 + 1))).
        { apply mult_le_l; [apply Qclt_le_weak, nu_pos|]. apply Qcle_trans with (h * fw_tol prm - h * h * K / (1 + 1)).
          - apply Qceq_le. unfold h. set (k := K) in *. set (t := fw_tol prm) in *. clearbody k t. field. split; [auto|discriminate].
          - assert (Z := mult_le_l h _ _ H0 ET). set (a := h * gap) in *. set (b := h * fw_tol prm) in *. set (c := h * h * K / (1 + 1)) in *. clearbody a b c. qclra. }
        rewrite Qcmult_plus_distr_l. replace (1 * inc) with inc by ring. set (x := ofN _ * inc) in *. set (y := inc) in *. set (z := D (fb_w st) (fb_l st)) in *. set (z' := D (fb_w st') (fb_l st')) in *. set (q := nu * (_ - _)) in *. clearbody x y z z' q. clear - A Q Q2. qclra.
    Qed.
    Lemma stop_loop k : forall st, sinv st -> (k0 + j0 <= k + length (fb_curve st))%nat -> exists st0 st' gap,
      fw_batch_loop prm bm Xs Ys (feat_sum T d Xs Ys) k (length (fb_curve st)) st = Ok st' /\ sinv st0 /\
      fw_batch_step prm bm Xs Ys (feat_sum T d Xs Ys) (length (fb_curve st0)) st0 = Ok (st', gap) /\ gap < fw_tol prm.
    Proof.
      induction k as [|k IH]; intros st HI HK; cbn [fw_batch_loop]. { exfalso. assert (Q := sinv_early st HI). lia. }
      destruct (rate_step_inv st (proj1 HI)) as [st1 [gap [E [_ [_ [_ [EC _]]]]]]]. rewrite E. cbn [bind fst snd]. destruct (Qcltb gap (fw_tol prm)) eqn:ET.
      - exists st, st1, gap. repeat split; auto; try apply HI. unfold Qcltb in ET. apply Bool.negb_true_iff, Qcleb_gt in ET. exact ET.
      - assert (L1 : length (fb_curve st1) = S (length (fb_curve st))) by (rewrite EC, app_length; cbn; lia). rewrite <- L1. apply IH; [|lia]. eapply sinv_step; eauto.
    Qed.
    Lemma batch_stops sched : fw_batch prm = true -> (k0 + j0 <= fw_max_iter prm)%nat -> exists w p c Pv o Dv,
      fw_fit prm bm Xs Ys sched None = Ok (w, 0, p ++ [Pv; o], c ++ [Dv; Dv]) /\ (length c < k0 + j0)%nat /\ Pv - Dv < nu * fw_tol prm /\
      low Dv /\ forall s, 0 <= s -> nu * fw_tol prm <= s * s ->
        within T d C SS w (nu * fw_tol prm + ((1 + 1) * nu * R * s + s * s / (1 + 1))).
    Proof.
      intros HBt HM. assert (I0 : sinv bstart). { split; [apply bstart_inv|]. cbn [bstart fb_curve length]. lia. }
      destruct (stop_loop (fw_max_iter prm) bstart I0) as [st0 [st' [gap [EL [HI [ES ET]]]]]]; [cbn; lia|].
      destruct (rate_step_inv st0 (proj1 HI)) as [st1 [gap1 [E1 [I1 [EG [EP [EC [MV _]]]]]]]]. rewrite ES in E1. assert (st1 = st' /\ gap1 = gap) as [-> ->] by (split; congruence).
      assert (LW := feasible_length _ _ _ _ _ _ (sized' T d Xs Ys bm HU) (proj1 I1)). destruct (objective_total T d prm Xs Ys bm HN HU (fb_w st') LW) as [o Eo].
      exists (fb_w st'), (fb_primal st0), (fb_curve st0), (P (fb_w st0)), o, (D (fb_w st0) (fb_l st0)).
      assert (NP := nu_pos). assert (GT : nu * gap < nu * fw_tol prm). { rewrite !(Qcmult_comm nu). apply Qcmult_lt_compat_r; auto. }
      assert (LO : low (D (fb_w st0) (fb_l st0))). { apply (feasible_bound T d prm Xs Ys bm HN HC HU). apply HI. }
      split; [|split; [|split; [|split; [exact LO|]]]].
      - unfold fw_fit. rewrite HBt, (proj1 (proj1 HU)), frank_batch_eq, EL. cbn [bind]. rewrite Eo. cbn [bind]. rewrite EP, EC. unfold last_of. rewrite rev_app_distr. cbn [rev app bind]. rewrite <- !app_assoc. reflexivity.
      - apply sinv_early; auto.
      - unfold dgap in EG. rewrite <- EG. exact GT.
      - intros s Hs HS. exists (Hf T Xs Ys bm (fb_w st')). split; [eapply Hf_hinges; eauto|]. intros w' hs' Hw' HH. fold (P (fb_w st')).
        assert (M := prim_move T d C Xs Ys bm R L HN HC HU HE HB (fb_w st0) (fb_l st0) (fb_w st') s (proj1 (proj1 HI)) LW Hs).
        assert (M1 : normsq (vsub (fb_w st') (fb_w st0)) <= s * s). { eapply Qcle_trans; [apply MV; auto|]. eapply Qcle_trans; [apply Qclt_le_weak; exact GT|exact HS]. } specialize (M M1).
        replace ((1 + 1) * nu * R * s) with ((1 + 1) * (C * R) * (n * s)) by ring. specialize (LO w' hs' Hw' HH). unfold dgap in EG.
        set (a := P (fb_w st')) in *. set (b := P (fb_w st0)) in *. set (e := D _ _) in *. set (f := primal_value _ _ _) in *. set (x := nu * gap) in *. set (y := nu * fw_tol prm) in *. match goal with |- _ <= _ + (_ + ?q) => set (z := q) in * end. clearbody a b e f x y z. clear - M EG GT LO. qclra.
    Qed.
  End stop.
End batch.

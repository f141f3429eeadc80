(** Block-coordinate Frank-Wolfe: the loop and the fit. *)
From Coq Require Import Permutation QArith.Qround.
From Verif Require Import Proofs.Arrays Proofs.LossProofs Proofs.CRFProofs Proofs.LearnerProofs
  Proofs.UnstructuredProofs2 Proofs.QPProofs Proofs.OneSlackProofs Proofs.OneSlackProofs2 Model.FrankWolfe Spec.FWRateSpec
  Proofs.FrankWolfeProofs Proofs.FrankWolfeProofs2 Proofs.FrankWolfeProofs3 Proofs.FrankWolfeProofs4 Proofs.FWRate Proofs.FWRate2 Proofs.FWRate3 Proofs.FWRate4.
Notation mix := FrankWolfe.mix.

Section bc.
  Context {X Y : Type} (T : task X Y) (d : nat) (prm : fw_params) (Xs : list X) (Ys : list Y) (bm : bmodel X Y) (R L : Qc) (sched : nat -> list nat).
  Notation SS := (combine Xs Ys). Notation n := (ofN (length Xs)). Notation C := (fw_C prm).
  Hypothesis HN : (0 < length Xs)%nat.
  Hypothesis HC : 0 <= C.
  Hypothesis HU : fw_usable T d Xs Ys bm.
  Hypothesis HE : batch_exact bm T d Xs Ys.
  Hypothesis HB : bounded T R L SS.
  Hypothesis HL : fw_line prm = true.
  Hypothesis HS : passes (length Xs) sched.
  Hypothesis HK : (0 < fw_check prm)%nat.
  Notation D w l := (dual_objective C (length Xs) w l).
  Notation inv := (fw_inv T d prm Xs Ys).
  Notation gapf := (dgap T C Xs Ys bm).
  Notation P := (prim T C Xs Ys bm).
  Notation m := (bm_s bm).
  Notation c := (fw_check prm).
  Notation pass it st := (fw_pass prm m Xs Ys (sched it) st).
  Lemma sched_range it : Forall (fun i => (i < length Xs)%nat) (sched it).
  Proof. apply Forall_forall. intros i Hi. assert (Q := Permutation_in i (HS it) Hi). apply in_seq in Q. lia. Qed.
  Lemma pass_exists it st : inv st -> exists st1, pass it st = Ok st1 /\ inv st1.
  Proof.
    intro HI. assert (HO := proj1 (proj2 (proj2 (proj1 HU)))). assert (G := good' T d Xs Ys bm HU). destruct (pass_total T d prm Xs Ys G HN m (sched it) HO (sched_range it) st HI) as [st1 E].
    exists st1. split; auto. exact (pass_inv T d prm Xs Ys G HN m (sched it) HO st st1 HI E).
  Qed.
  Lemma calc_at w l : length w = d -> calc_dual_gap C bm Xs Ys w l = Ok (D w l, gapf w l, P w).
  Proof.
    intro Hw. destruct (calc_exact T d C Xs Ys bm w l HU HE Hw) as [hs [HH E]]. rewrite E. unfold dgap, prim. rewrite (Hf_unique T d Xs Ys bm HU HE w hs Hw HH). reflexivity.
  Qed.
  Section loop.
    Variable Inv : nat -> fw_state -> Prop.
    Variable j : nat.
    Hypothesis Hstep : forall it st st1, (it <= j)%nat -> inv st -> inv st1 -> Inv it st -> pass it st = Ok st1 ->
      Inv (S it) st1 \/ (it mod c = 0%nat /\ gapf (fs_self_w st1) (fs_self_l st1) < fw_tol prm).
    Hypothesis Hend : forall st st1, inv st -> inv st1 -> Inv j st -> pass j st = Ok st1 -> gapf (fs_self_w st1) (fs_self_l st1) < fw_tol prm.
    Hypothesis Hj : (j mod c = 0)%nat.
    Lemma rate_loop k : forall it st gap primal curve, inv st -> Inv it st -> (it <= j < it + k)%nat -> (gap = None -> it = O) -> (forall g, gap = Some g -> Qcltb g (fw_tol prm) = false) ->
      (it <= c * length curve < it + c)%nat ->
      exists st' p cu, fw_bc_loop prm bm Xs Ys sched k it st gap primal curve = Ok (st', p ++ [P (fs_self_w st')], cu ++ [D (fs_self_w st') (fs_self_l st')]) /\ inv st' /\
        gapf (fs_self_w st') (fs_self_l st') < fw_tol prm /\ (c * length cu <= j)%nat.
    Proof.
      induction k as [|k IH]; intros it st gap primal curve HI HV Hit HG HT HLn; [lia|]. cbn [fw_bc_loop]. destruct (pass_exists it st HI) as [st1 [E I1]]. rewrite E. cbn [bind].
      assert (LW := self_w_length T d prm Xs Ys (good' T d Xs Ys bm HU) st1 I1). destruct (Nat.eqb_spec c 0) as [Z|_]; [lia|]. cbn [negb andb].
      destruct (Nat.eqb_spec (it mod c) 0) as [Z|Z].
      - rewrite (calc_at _ _ LW). cbn [bind fst snd]. apply Nat.mod_divide in Z; [|lia]. destruct Z as [q Eq].
        assert (EL : length curve = q) by nia.
        destruct (Qcltb (gapf (fs_self_w st1) (fs_self_l st1)) (fw_tol prm)) eqn:ET.
        + exists st1, primal, curve. split; auto. split; auto. unfold Qcltb in ET. apply Bool.negb_true_iff, Qcleb_gt in ET. split; auto. subst q. lia.
        + assert (NL : ~ gapf (fs_self_w st1) (fs_self_l st1) < fw_tol prm). { unfold Qcltb in ET. apply Bool.negb_false_iff, Qcleb_le in ET. intro Q. revert ET. apply Qclt_not_le. auto. }
          assert (NJ : it <> j). { intros ->. apply NL. eapply (Hend st); eauto. }
          destruct (Hstep it st st1 ltac:(lia) HI I1 HV E) as [V1|[_ V1]]; [|contradiction].
          apply IH; auto; try lia; try discriminate. { intros g Eg. congruence. } rewrite app_length. cbn [length]. nia.
      - cbn [bind]. assert (NI : it <> O). { intros ->. apply Z. apply Nat.mod_0_l. lia. } destruct gap as [g|]; [|exfalso; auto]. rewrite (HT g eq_refl).
        assert (NJ : it <> j) by congruence. destruct (Hstep it st st1 ltac:(lia) HI I1 HV E) as [V1|[V1 _]]; [|contradiction].
        apply IH; auto; try lia; try discriminate. assert (it <> c * length curve)%nat. { intro Eq. apply Z. rewrite Eq, Nat.mul_comm. apply Nat.mod_mul. lia. } lia.
    Qed.
    Lemma rate_fit : fw_batch prm = false -> (j < fw_max_iter prm)%nat -> Inv 0 (fw_bc_start d (length Xs) (vzero d) 0) ->
      exists w l p cu Pv Dv, fw_fit prm bm Xs Ys sched None = Ok (w, l, p ++ [Pv; Pv], cu ++ [Dv; Dv]) /\ (c * length cu <= j)%nat /\ Pv - Dv < fw_tol prm /\ within T d C SS w (fw_tol prm).
    Proof.
      intros HBt HM HV. assert (G := good' T d Xs Ys bm HU).
      destruct (rate_loop (fw_max_iter prm) 0 (fw_bc_start d (length Xs) (vzero d) 0) None [] [] (start_inv T d prm Xs Ys G) HV) as [st' [p [cu [E [I' [GT LC]]]]]]; [lia|auto|discriminate|cbn [length]; lia|].
      exists (fs_self_w st'), (fs_self_l st'), p, cu, (P (fs_self_w st')), (D (fs_self_w st') (fs_self_l st')). assert (LW := self_w_length T d prm Xs Ys G st' I').
      assert (EF : fw_fit prm bm Xs Ys sched None = Ok (fs_self_w st', fs_self_l st', p ++ [P (fs_self_w st'); P (fs_self_w st')], cu ++ [D (fs_self_w st') (fs_self_l st'); D (fs_self_w st') (fs_self_l st')])).
      { unfold fw_fit, frank_wolfe_bc. rewrite HBt, (proj1 (proj1 HU)), E. cbn [bind]. destruct (fw_gap_report T d C Xs Ys bm (fs_self_w st') (fs_self_l st') HN HU HE LW) as [hs [HH [EO _]]]. rewrite EO. cbn [bind].
        rewrite (Hf_unique T d Xs Ys bm HU HE _ hs LW HH). unfold last_of. rewrite rev_app_distr. cbn [rev app bind]. rewrite <- !app_assoc. reflexivity. }
      split; auto. split; auto. split; auto.
      destruct (fw_fit_certificate T d prm Xs Ys bm HN HC HU sched _ _ _ _ _ _ _ HE HBt EF GT) as [_ [_ [hs [HH [EP Q]]]]]. exists hs. split; auto. rewrite <- EP. exact Q.
    Qed.
  End loop.
  Variables (dl : Qc) (M : nat).
  Hypothesis Hdl : 0 < dl.
  Hypothesis HdK : dl * dl <= bc_curvature C R.
  Notation gain := (bc_gain C R dl).
  Hypothesis HM : C * n * L < ofN (S M) * gain.
  Hypothesis HBt : fw_batch prm = false.
  Lemma gain_pos : 0 < gain.
  Proof.
    unfold bc_gain, Qcdiv. apply Qcmult_pos; [repeat apply Qcmult_pos; auto|]. apply Qcinv_pos. apply Qcmult_pos; [reflexivity|]. eapply K_pos'; eauto.
  Qed.
  Lemma few_gains st q : inv st -> ofN q * gain <= D (fs_w st) (fs_l st) -> (q <= M)%nat.
  Proof.
    intros HI HQ. destruct (le_lt_dec q M) as [A|A]; [exact A|]. exfalso. assert (Q1 := dual_le T d C Xs Ys bm R L HN HC HU HE HB _ _ (inv_feasible T d prm Xs Ys st HI)).
    assert (Q2 := Qcmult_le_compat_r _ _ gain (ofN_le' (S M) q ltac:(lia)) (Qclt_le_weak _ _ gain_pos)).
    assert (Q3 := Qcle_trans _ _ _ (Qcle_trans _ _ _ Q2 HQ) Q1). revert Q3. apply Qclt_not_le. exact HM.
  Qed.
  Lemma start_dual : D (vzero d) 0 = 0.
  Proof. unfold dual_objective, normsq. rewrite dot_vzero_l. unfold Qcdiv. ring. Qed.
  (** ** without averaging *)
  Lemma plain_converges : fw_avg prm = false -> bc_gap (length Xs) C R dl < fw_tol prm -> (c * M < fw_max_iter prm)%nat ->
    exists w l p cu Pv Dv, fw_fit prm bm Xs Ys sched None = Ok (w, l, p ++ [Pv; Pv], cu ++ [Dv; Dv]) /\ (length cu <= M)%nat /\ Pv - Dv < fw_tol prm /\ within T d C SS w (fw_tol prm).
  Proof.
    intros HA HT HI0. set (Inv := fun (it : nat) (st : fw_state) => exists q, (it <= c * q < it + c)%nat /\ ofN q * gain <= D (fs_w st) (fs_l st)).
    assert (PLN : forall it st st1, inv st -> pass it st = Ok st1 -> fs_self_w st1 = fs_w st1 /\ fs_self_l st1 = fs_l st1).
    { intros it st st1 HI E. assert (LN : length (sched it) = length Xs) by (rewrite (Permutation_length (HS it)), seq_length; reflexivity).
      destruct (sched it) as [|i r] eqn:ES; [cbn in LN; lia|]. cbn [fw_pass] in E. apply bind_ok in E. destruct E as [st2 [E1 E]].
      destruct (step_rate T d prm Xs Ys bm R L HN HC HU HE HB HL i st st2 HI E1) as [_ [_ [_ [_ [_ [_ [_ E2]]]]]]]. rewrite HA in E2.
      assert (PL := pass_plain prm Xs Ys m r st2 st1). apply PL; auto. intros _. exact E2. }
    destruct (rate_fit Inv (c * M)) as [w [l [p [cu [Pv [Dv [E1 [E2 E3]]]]]]]].
    - intros it st st1 _ HI I1 [q [Hq HD]] E. destruct (full_pass T d prm Xs Ys bm R L HN HC HU HE HB HL dl (Qclt_le_weak _ _ Hdl) HdK (sched it) st st1 (HS it) HI E) as [Q|[Q _]].
      + assert (HD2 : ofN (S q) * gain <= D (fs_w st1) (fs_l st1)). { rewrite ofN_S. replace ((1 + ofN q) * gain) with (ofN q * gain + gain) by ring. eapply Qcle_trans; [|exact Q]. apply Qcplus_le_compat; [exact HD|apply Qcle_refl]. }
        assert (HD3 : ofN q * gain <= D (fs_w st1) (fs_l st1)). { eapply Qcle_trans; [|exact HD2]. apply Qcmult_le_compat_r; [apply ofN_le'; lia|apply Qclt_le_weak, gain_pos]. }
        left. destruct (Nat.eq_dec it (c * q)) as [->|NE]; [exists (S q)|exists q]; (split; [nia|auto]).
      + destruct (Nat.eq_dec (it mod c) 0) as [Z|Z].
        * right. split; auto. destruct (PLN it st st1 HI E) as [-> ->]. eapply Qcle_lt_trans; eauto.
        * left. exists q. split; [|eapply Qcle_trans; [exact HD|eapply pass_rises; eauto]]. assert (it <> c * q)%nat. { intros ->. apply Z. rewrite Nat.mul_comm. apply Nat.mod_mul. lia. } lia.
    - intros st st1 HI I1 [q [Hq HD]] E. assert (q = M) by nia. subst q.
      destruct (full_pass T d prm Xs Ys bm R L HN HC HU HE HB HL dl (Qclt_le_weak _ _ Hdl) HdK (sched (c * M)) st st1 (HS _) HI E) as [Q|[Q _]].
      + exfalso. assert (HD2 : ofN (S M) * gain <= D (fs_w st1) (fs_l st1)). { rewrite ofN_S. replace ((1 + ofN M) * gain) with (ofN M * gain + gain) by ring. eapply Qcle_trans; [|exact Q]. apply Qcplus_le_compat; [exact HD|apply Qcle_refl]. }
        assert (A := few_gains st1 _ I1 HD2). lia.
      + destruct (PLN _ st st1 HI E) as [-> ->]. eapply Qcle_lt_trans; eauto.
    - rewrite Nat.mul_comm. apply Nat.mod_mul. lia.
    - exact HBt.
    - exact HI0.
    - exists O. split; [lia|]. cbn [fw_bc_start fs_w fs_l]. rewrite start_dual, ofN_0. apply Qceq_le. ring.
    - exists w, l, p, cu, Pv, Dv. split; auto. split; auto. nia.
  Qed.
  (** ** with averaging *)
  Notation W := (worst_gap (length Xs) C R L).
  Notation E2 := (bc_gap' (length Xs) C R dl).
  Notation E1 := (bc_gap (length Xs) C R dl).
  Lemma E1_nonneg : 0 <= E1.
  Proof.
    unfold bc_gap. assert (A := ofN_nonneg (length Xs)). assert (B := CR_nonneg T C Xs Ys R L HC HB). assert (Q1 : 0 <= n * (dl * dl)) by (apply Qcmult_nonneg; auto; apply Qc_sq_nonneg).
    assert (Q2 : 0 <= (1 + 1) * (C * R) * (n * n * dl)). { apply Qcmult_nonneg; [apply Qcmult_nonneg; [discriminate|auto]|]. apply Qcmult_nonneg; [apply Qc_sq_nonneg|apply Qclt_le_weak; auto]. }
    set (x := n * (dl * dl)) in *. set (y := (1 + 1) * (C * R) * (n * n * dl)) in *. clearbody x y. clear - Q1 Q2. qclra.
  Qed.
  Lemma E2_nonneg : 0 <= E2.
  Proof.
    unfold bc_gap'. assert (Q0 := E1_nonneg). assert (B := CR_nonneg T C Xs Ys R L HC HB).
    assert (Q2 : 0 <= (1 + 1) * (C * R) * (n * n * dl)). { apply Qcmult_nonneg; [apply Qcmult_nonneg; [discriminate|auto]|]. apply Qcmult_nonneg; [apply Qc_sq_nonneg|apply Qclt_le_weak; auto]. }
    assert (Q3 : 0 <= n * dl * (n * dl) / (1 + 1)) by (apply Qchalf_nonneg, Qc_sq_nonneg).
    set (x := E1) in *. set (y := (1 + 1) * (C * R) * (n * n * dl)) in *. set (z := n * dl * (n * dl) / (1 + 1)) in *. clearbody x y z. clear - Q0 Q2 Q3. qclra.
  Qed.
  Lemma tri_diff k a : tri (k + a) - tri k <= ofN a * ofN (k + a) /\ 0 <= tri (k + a) - tri k.
  Proof.
    unfold tri. rewrite ofN_plus. assert (A := ofN_nonneg k). destruct a as [|a]. { rewrite ofN_0. split; apply Qceq_le; unfold Qcdiv; ring. }
    assert (B := ofN_nonneg a). rewrite ofN_S. set (x := ofN k) in *. set (y := ofN a) in *. clearbody x y. split.
    - apply Qcle_minus_iff. match goal with |- 0 <= ?e => replace e with ((1 + y) * y / (1 + 1)) by (field; discriminate) end. apply Qchalf_nonneg. apply Qcmult_nonneg; qclra.
    - match goal with |- 0 <= ?e => replace e with ((1 + y) * (x + x + y + (1 + 1)) / (1 + 1)) by (field; discriminate) end. apply Qchalf_nonneg. apply Qcmult_nonneg; qclra.
  Qed.
  Lemma average_converges q : fw_avg prm = true -> E2 + (1 + 1) * W * ofN (2 * M + 1) / ofN (S (c * q)) < fw_tol prm -> (c * q < fw_max_iter prm)%nat ->
    exists w l p cu Pv Dv, fw_fit prm bm Xs Ys sched None = Ok (w, l, p ++ [Pv; Pv], cu ++ [Dv; Dv]) /\ (length cu <= q)%nat /\ Pv - Dv < fw_tol prm /\ within T d C SS w (fw_tol prm).
  Proof.
    intros HA HT HI0.
    set (Inv := fun (it : nat) (st : fw_state) => fs_k st = (length Xs * it)%nat /\ exists bad nn (pg : bool), ofN bad * gain <= D (fs_w st) (fs_l st) /\
      (nn + (if pg then 0 else 1) <= 2 * bad + 1)%nat /\ pot T prm Xs Ys bm st <= E2 * tri (fs_k st) + W * ofN nn * (n * ofN (fs_k st)) /\ (pg = true -> gapf (fs_w st) (fs_l st) <= E1)).
    assert (WN := worst_nonneg T d C Xs Ys bm R L HN HC HU HE HB). assert (EN := E2_nonneg). assert (GP := gain_pos).
    assert (ST : forall it st st1, inv st -> Inv it st -> pass it st = Ok st1 -> Inv (S it) st1).
    { intros it st st1 HI [EK [bad [nn [pg [V1 [V2 [V3 V4]]]]]]] E. assert (LN : length (sched it) = length Xs) by (rewrite (Permutation_length (HS it)), seq_length; reflexivity).
      destruct (pass_k T d prm Xs Ys bm R L HN HC HU HE HB HL (sched it) st st1 HI E) as [I1 EK1]. rewrite LN in EK1. split; [lia|].
      assert (MR := pass_rises prm Xs Ys m (sched it) HL st st1 E). assert (PP := pass_pot T d prm Xs Ys bm R L HN HC HU HE HB HL (sched it) HA st st1 HI E).
      destruct (tri_diff (fs_k st) (length Xs)) as [T1 T2]. rewrite <- EK1 in T1, T2.
      assert (OK1 : n * ofN (fs_k st) <= n * ofN (fs_k st1)). { apply mult_le_l; [apply ofN_nonneg|]. apply ofN_le'. lia. }
      assert (BADP : pot T prm Xs Ys bm st1 <= E2 * tri (fs_k st1) + W * ofN (S nn) * (n * ofN (fs_k st1))).
      { assert (Q1 := mult_le_l W _ _ WN T1). assert (Q2 := mult_le_l E2 _ _ EN T2). assert (Q3 := mult_le_l (W * ofN nn) _ _ (Qcmult_nonneg _ _ WN (ofN_nonneg nn)) OK1).
        rewrite (ofN_S nn). replace (W * (1 + ofN nn) * (n * ofN (fs_k st1))) with (W * (n * ofN (fs_k st1)) + W * ofN nn * (n * ofN (fs_k st1))) by ring.
        replace (E2 * (tri (fs_k st1) - tri (fs_k st))) with (E2 * tri (fs_k st1) - E2 * tri (fs_k st)) in Q2 by ring. replace (E2 * 0) with 0 in Q2 by ring.
        set (p0 := pot T prm Xs Ys bm st) in *. set (p1 := pot T prm Xs Ys bm st1) in *. set (x1 := W * (tri (fs_k st1) - tri (fs_k st))) in *. set (x2 := W * (n * ofN (fs_k st1))) in *. set (x3 := E2 * tri (fs_k st1)) in *. set (x4 := E2 * tri (fs_k st)) in *.
        set (x5 := W * ofN nn * (n * ofN (fs_k st))) in *. set (x6 := W * ofN nn * (n * ofN (fs_k st1))) in *. clearbody p0 p1 x1 x2 x3 x4 x5 x6. clear - V3 PP Q1 Q2 Q3. qclra. }
      destruct (full_pass T d prm Xs Ys bm R L HN HC HU HE HB HL dl (Qclt_le_weak _ _ Hdl) HdK (sched it) st st1 (HS it) HI E) as [Q|[Q QG]].
      - exists (S bad), (S nn), false. split; [|split; [|split; [exact BADP|discriminate]]].
        + rewrite ofN_S. replace ((1 + ofN bad) * gain) with (ofN bad * gain + gain) by ring. eapply Qcle_trans; [|exact Q]. apply Qcplus_le_compat; [exact V1|apply Qcle_refl].
        + destruct pg; lia.
      - assert (V1' : ofN bad * gain <= D (fs_w st1) (fs_l st1)) by (eapply Qcle_trans; eauto). destruct pg.
        + exists bad, nn, true. split; auto. split; auto. split; auto. specialize (QG HA (V4 eq_refl)).
          assert (Q3 := mult_le_l (W * ofN nn) _ _ (Qcmult_nonneg _ _ WN (ofN_nonneg nn)) OK1).
          replace (E2 * (tri (fs_k st1) - tri (fs_k st))) with (E2 * tri (fs_k st1) - E2 * tri (fs_k st)) in QG by ring.
          set (p0 := pot T prm Xs Ys bm st) in *. set (p1 := pot T prm Xs Ys bm st1) in *. set (x3 := E2 * tri (fs_k st1)) in *. set (x4 := E2 * tri (fs_k st)) in *.
          set (x5 := W * ofN nn * (n * ofN (fs_k st))) in *. set (x6 := W * ofN nn * (n * ofN (fs_k st1))) in *. clearbody p0 p1 x3 x4 x5 x6. clear - V3 QG Q3. qclra.
        + exists bad, (S nn), true. split; auto. split; [lia|]. split; auto. }
    destruct (rate_fit Inv (c * q)) as [w [l [p [cu [Pv [Dv [F1 [F2 F3]]]]]]]].
    - intros it st st1 _ HI I1 HV E. left. exact (ST it st st1 HI HV E).
    - intros st st1 HI I1 HV E. destruct (ST _ _ _ HI HV E) as [EK [bad [nn [pg [V1 [V2 [V3 _]]]]]]]. assert (BM := few_gains st1 bad I1 V1).
      assert (NM : (nn <= 2 * M + 1)%nat) by (destruct pg; lia). assert (ON := ofN_le' nn (2 * M + 1) NM). eapply Qcle_lt_trans; [|exact HT].
      unfold pot in V3. rewrite EK in V3. set (g := gapf (fs_self_w st1) (fs_self_l st1)) in *. unfold tri in V3. rewrite ofN_mult in V3.
      assert (NP := ofN_pos _ HN). assert (JP : 0 < ofN (S (c * q))) by (apply ofN_pos; lia). set (jj := ofN (S (c * q))) in *. set (z := n) in *. set (v := ofN nn) in *. set (v' := ofN (2 * M + 1)) in *. set (e := E2) in *. set (u := W) in *.
      assert (VN : 0 <= v) by apply ofN_nonneg. clearbody jj z v v' e u g. clear - V3 NP JP ON WN VN.
      assert (KP : 0 < z * jj) by (apply Qcmult_pos; auto). assert (KP1 : 0 < z * jj + 1) by (set (k := z * jj) in *; clearbody k; qclra).
      assert (Q1 : g <= e + (1 + 1) * u * v * z / (z * jj + 1)).
      { assert (KZ : z * jj <> 0) by (intro Z; rewrite Z in KP; discriminate). assert (KZ1 : z * jj + 1 <> 0) by (intro Z; rewrite Z in KP1; discriminate). set (k := z * jj) in *. clearbody k.
        assert (F : 0 <= (1 + 1) / (k * (k + 1))). { unfold Qcdiv. apply Qcmult_nonneg; [discriminate|]. apply Qclt_le_weak, Qcinv_pos, Qcmult_pos; auto. }
        apply (fun h => Qcmult_le_compat_r _ _ _ h F) in V3. replace (k * (k + 1) / (1 + 1) * g * ((1 + 1) / (k * (k + 1)))) with g in V3 by (field; repeat split; auto; discriminate).
        replace ((e * (k * (k + 1) / (1 + 1)) + u * v * (z * k)) * ((1 + 1) / (k * (k + 1)))) with (e + (1 + 1) * u * v * z / (k + 1)) in V3 by (field; repeat split; auto; discriminate). exact V3. }
      eapply Qcle_trans; [exact Q1|]. apply Qcplus_le_compat; [apply Qcle_refl|].
      assert (JZ : jj <> 0) by (intro Z; rewrite Z in JP; discriminate). assert (ZZ : z <> 0) by (intro Z; rewrite Z in NP; discriminate).
      apply Qcdiv_le_l; auto. apply Qcle_trans with ((1 + 1) * u * v / jj * (z * jj)).
      + apply Qceq_le. field. auto.
      + assert (UV : 0 <= (1 + 1) * u * v) by (apply Qcmult_nonneg; auto; apply Qcmult_nonneg; [discriminate|auto]). assert (JI := Qclt_le_weak _ _ (Qcinv_pos _ JP)).
        apply mult_le.
        * unfold Qcdiv. apply Qcmult_nonneg; auto.
        * apply Qclt_le_weak; auto.
        * unfold Qcdiv. apply Qcmult_le_compat_r; auto. apply mult_le_l; auto. apply Qcmult_nonneg; [discriminate|auto].
        * set (k := z * jj) in *. clearbody k. qclra.
    - rewrite Nat.mul_comm. apply Nat.mod_mul. lia.
    - exact HBt.
    - exact HI0.
    - split; [cbn [fw_bc_start fs_k]; lia|]. exists O, O, false. cbn [fw_bc_start fs_w fs_l fs_k]. split; [rewrite start_dual, ofN_0; apply Qceq_le; ring|]. split; [lia|]. split; [|discriminate].
      unfold pot. cbn [fw_bc_start fs_k fs_self_w fs_self_l]. assert (T0 : tri 0 = 0) by (unfold tri; rewrite ofN_0; unfold Qcdiv; ring). rewrite T0, ofN_0. apply Qceq_le. ring.
    - exists w, l, p, cu, Pv, Dv. split; auto. split; auto. nia.
  Qed.
End bc.

(** ** for any tolerance *)
Lemma archimedes x : exists N, x < ofN N.
Proof.
  exists (Z.to_nat (Z.max 0 (Qceiling x + 1))). unfold ofN, Qclt. rewrite this_ofZ. apply Qle_lt_trans with (inject_Z (Qceiling x)); [apply Qle_ceiling|].
  rewrite <- Zlt_Qlt. lia.
Qed.
Lemma rate_exists {X Y} (T : task X Y) d C tol chk avg Xs Ys (bm : bmodel X Y) R L : (0 < length Xs)%nat -> 0 <= C -> fw_usable T d Xs Ys bm -> batch_exact bm T d Xs Ys -> bounded T R L (combine Xs Ys) ->
  0 < tol -> (0 < chk)%nat -> exists N, forall it sched, (N <= it)%nat -> passes (length Xs) sched ->
  exists w l p c Pv Dv, fw_fit (FWParams C it tol false true chk avg) bm Xs Ys sched None = Ok (w, l, p ++ [Pv; Pv], c ++ [Dv; Dv]) /\ (length c < N)%nat /\ Pv - Dv < tol /\ within T d C (combine Xs Ys) w tol.
Proof.
  intros HN HC HU HE HB HT HK. set (n := ofN (length Xs)). assert (RP : 0 <= R) by apply HB. assert (NN : 0 <= n) by apply ofN_nonneg.
  assert (CR : 0 <= C * R) by (apply Qcmult_nonneg; auto).
  set (Sx := n + ofN 4 * (C * R) * (n * n) + n * n). assert (SN : 0 <= Sx).
  { unfold Sx. assert (Q1 := Qc_sq_nonneg n). assert (Q2 : 0 <= ofN 4 * (C * R) * (n * n)) by (apply Qcmult_nonneg; auto; apply Qcmult_nonneg; auto; apply ofN_nonneg). set (a := n * n) in *. set (b := ofN 4 * (C * R) * a) in *. clearbody a b n. clear - Q1 Q2 NN. qclra. }
  destruct (archimedes ((1 + 1) * Sx / tol)) as [N1 H1]. set (dl := fw_eps / (1 + ofN N1)). assert (EP := fw_eps_pos). assert (ON := ofN_nonneg N1).
  assert (OP : 0 < 1 + ofN N1) by (set (a := ofN N1) in *; clearbody a; clear - ON; qclra). assert (OZ : 1 + ofN N1 <> 0) by (intro Z; rewrite Z in OP; discriminate). assert (OI := Qcinv_pos _ OP).
  assert (DP : 0 < dl) by (unfold dl, Qcdiv; apply Qcmult_pos; auto).
  assert (E1 : fw_eps <= 1) by (vm_compute; discriminate).
  assert (DE : dl <= fw_eps). { unfold dl. apply Qcdiv_le_l; auto. replace (fw_eps * (1 + ofN N1)) with (fw_eps + fw_eps * ofN N1) by ring. assert (Q := Qcmult_nonneg _ _ (Qclt_le_weak _ _ EP) ON). set (a := fw_eps * ofN N1) in *. set (b := fw_eps) in *. clearbody a b. clear - Q. qclra. }
  assert (D1 : dl <= 1) by (eapply Qcle_trans; eauto).
  assert (DD : dl * dl <= dl). { replace dl with (dl * 1) at 3 by ring. apply mult_le_l; [apply Qclt_le_weak; auto|auto]. }
  assert (DI : dl <= / (1 + ofN N1)). { unfold dl, Qcdiv. replace (/ (1 + ofN N1)) with (1 * / (1 + ofN N1)) at 2 by ring. apply Qcmult_le_compat_r; auto. apply Qclt_le_weak; auto. }
  assert (TZ : tol <> 0) by (intro Z; rewrite Z in HT; discriminate).
  assert (DS : dl * Sx < tol / (1 + 1)).
  { apply Qcle_lt_trans with (/ (1 + ofN N1) * Sx); [apply Qcmult_le_compat_r; auto|].
    assert (H2 : Sx < tol / (1 + 1) * (1 + ofN N1)).
    { apply (fun h => Qcmult_lt_compat_r _ _ (tol / (1 + 1)) h) in H1; [|unfold Qcdiv; apply Qcmult_pos; [auto|reflexivity]]. replace ((1 + 1) * Sx / tol * (tol / (1 + 1))) with Sx in H1 by (field; split; [discriminate|auto]).
      replace (tol / (1 + 1) * (1 + ofN N1)) with (ofN N1 * (tol / (1 + 1)) + tol / (1 + 1)) by ring. assert (TP : 0 < tol / (1 + 1)) by (unfold Qcdiv; apply Qcmult_pos; [auto|reflexivity]).
      set (a := ofN N1 * (tol / (1 + 1))) in *. set (b := tol / (1 + 1)) in *. clearbody a b Sx. clear - H1 TP. qclra. }
    apply (fun h => Qcmult_lt_compat_r _ _ (/ (1 + ofN N1)) OI h) in H2. replace (tol / (1 + 1) * (1 + ofN N1) * / (1 + ofN N1)) with (tol / (1 + 1)) in H2 by (field; split; [auto|discriminate]). rewrite (Qcmult_comm (/ _)). exact H2. }
  assert (GB : bc_gap (length Xs) C R dl <= bc_gap' (length Xs) C R dl /\ bc_gap' (length Xs) C R dl <= dl * Sx).
  { assert (Q2 : 0 <= (1 + 1) * (C * R) * (n * n * dl)). { apply Qcmult_nonneg; [apply Qcmult_nonneg; [discriminate|auto]|]. apply Qcmult_nonneg; [apply Qc_sq_nonneg|apply Qclt_le_weak; auto]. }
    assert (Q3 : 0 <= n * dl * (n * dl) / (1 + 1)) by (apply Qchalf_nonneg, Qc_sq_nonneg). split.
    - unfold bc_gap'. fold n. set (x := bc_gap _ _ _ _) in *. set (y := (1 + 1) * (C * R) * (n * n * dl)) in *. set (z := n * dl * (n * dl) / (1 + 1)) in *. clearbody x y z. clear - Q2 Q3. qclra.
    - unfold bc_gap', bc_gap. fold n. assert (A1 := mult_le_l n _ _ NN DD). assert (A2 : n * dl * (n * dl) / (1 + 1) <= n * n * dl).
      { apply Qcle_trans with (n * dl * (n * dl)).
        - apply Qcdiv_le_l; [reflexivity|]. replace (n * dl * (n * dl) * (1 + 1)) with (n * dl * (n * dl) + n * dl * (n * dl)) by ring. assert (Z := Qc_sq_nonneg (n * dl)). set (a := n * dl * (n * dl)) in *. clearbody a. clear - Z. qclra.
        - replace (n * dl * (n * dl)) with (n * n * (dl * dl)) by ring. apply mult_le_l; [apply Qc_sq_nonneg|auto]. }
      replace (dl * Sx) with (n * dl + ((1 + 1) * (C * R) * (n * n * dl) + (1 + 1) * (C * R) * (n * n * dl)) + n * n * dl) by (unfold Sx; change (ofN 4) with (ofN (2 + 2)); rewrite ofN_plus; change (ofN 2) with (1 + 1); ring).
      set (x := n * dl) in *. set (y := (1 + 1) * (C * R) * (n * n * dl)) in *. set (z := n * n * dl) in *. set (t := x * x / (1 + 1)) in *. set (s := n * (dl * dl)) in *. clearbody x y z t s. clear - A1 A2. qclra. }
  destruct GB as [GB1 GB2].
  assert (KB : dl * dl <= bc_curvature C R). { unfold bc_curvature. assert (A := Qc_sq_nonneg ((1 + 1) * (C * R))). set (a := (1 + 1) * (C * R) * _) in *. set (b := dl * dl) in *. set (e := fw_eps) in *. clearbody a b e dl. clear - A DD DE. qclra. }
  assert (GP : 0 < bc_gain C R dl).
  { unfold bc_gain, Qcdiv. apply Qcmult_pos; [repeat apply Qcmult_pos; auto|]. apply Qcinv_pos. apply Qcmult_pos; [reflexivity|]. unfold bc_curvature. assert (A := Qc_sq_nonneg ((1 + 1) * (C * R))). set (a := (1 + 1) * (C * R) * _) in *. set (e := fw_eps) in *. clearbody a e. clear - A EP. qclra. }
  assert (GZ : bc_gain C R dl <> 0) by (intro Z; rewrite Z in GP; discriminate).
  destruct (archimedes (C * n * L / bc_gain C R dl)) as [M HM].
  assert (HM' : C * n * L < ofN (S M) * bc_gain C R dl).
  { apply (fun h => Qcmult_lt_compat_r _ _ (bc_gain C R dl) h) in HM; auto. replace (C * n * L / bc_gain C R dl * bc_gain C R dl) with (C * n * L) in HM by (field; auto). eapply Qclt_le_trans; [exact HM|]. apply Qcmult_le_compat_r; [apply ofN_le'; lia|apply Qclt_le_weak; auto]. }
  set (W := worst_gap (length Xs) C R L). destruct (archimedes ((1 + 1) * ((1 + 1) * W * ofN (2 * M + 1)) / tol)) as [q Hq].
  assert (WQ : (1 + 1) * W * ofN (2 * M + 1) / ofN (S (chk * q)) < tol / (1 + 1)).
  { set (V := (1 + 1) * W * ofN (2 * M + 1)) in *. assert (JP : 0 < ofN (S (chk * q))) by (apply ofN_pos; lia). assert (JI := Qcinv_pos _ JP).
    assert (TP : 0 < tol / (1 + 1)) by (unfold Qcdiv; apply Qcmult_pos; [auto|reflexivity]).
    apply (fun h => Qcmult_lt_compat_r _ _ (tol / (1 + 1)) TP h) in Hq. replace ((1 + 1) * V / tol * (tol / (1 + 1))) with V in Hq by (field; split; [discriminate|auto]).
    assert (H2 : V < ofN (S (chk * q)) * (tol / (1 + 1))). { eapply Qclt_le_trans; [exact Hq|]. apply Qcmult_le_compat_r; [apply ofN_le'; nia|apply Qclt_le_weak; auto]. }
    apply (fun h => Qcmult_lt_compat_r _ _ _ JI h) in H2. assert (JZ : ofN (S (chk * q)) <> 0) by (intro Z; rewrite Z in JP; discriminate). set (jj := ofN (S (chk * q))) in *. clearbody jj. replace (jj * (tol / (1 + 1)) * / jj) with (tol / (1 + 1)) in H2 by (field; split; [auto|discriminate]). exact H2. }
  exists (chk * (M + q) + 1)%nat. intros it sched Hit HS. destruct avg.
  - destruct (average_converges T d (FWParams C it tol false true chk true) Xs Ys bm R L sched HN HC HU HE HB eq_refl HS HK dl M DP KB HM' eq_refl q eq_refl) as [w [l [p [cu [Pv [Dv [Q1 [Q2 Q3]]]]]]]].
    + cbn [fw_check fw_C fw_tol]. fold W. clear - GB2 DS WQ. set (a := bc_gap' _ _ _ _) in *. set (b := dl * Sx) in *. set (e := _ / ofN (S (chk * q))) in *. assert (TT : tol / (1 + 1) + tol / (1 + 1) = tol) by (field; discriminate). set (h := tol / (1 + 1)) in *. clearbody a b e h. qclra.
    + cbn [fw_check fw_max_iter]. nia.
    + exists w, l, p, cu, Pv, Dv. split; auto. split; auto. nia.
  - destruct (plain_converges T d (FWParams C it tol false true chk false) Xs Ys bm R L sched HN HC HU HE HB eq_refl HS HK dl M DP KB HM' eq_refl eq_refl) as [w [l [p [cu [Pv [Dv [Q1 [Q2 Q3]]]]]]]].
    + cbn [fw_check fw_C fw_tol]. clear - GB1 GB2 DS HT. set (a := bc_gap _ _ _ _) in *. set (a' := bc_gap' _ _ _ _) in *. set (b := dl * Sx) in *. assert (TT : tol / (1 + 1) + tol / (1 + 1) = tol) by (field; discriminate). set (h := tol / (1 + 1)) in *. clearbody a a' b h. qclra.
    + cbn [fw_check fw_max_iter]. nia.
    + exists w, l, p, cu, Pv, Dv. split; auto. split; auto. nia.
Qed.

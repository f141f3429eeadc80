(** Block-coordinate Frank-Wolfe: one update, one pass. *)
From Coq Require Import Permutation.
From Verif Require Import Proofs.Arrays Proofs.LossProofs Proofs.CRFProofs Proofs.LearnerProofs
  Proofs.UnstructuredProofs2 Proofs.QPProofs Proofs.OneSlackProofs Proofs.OneSlackProofs2 Model.FrankWolfe Spec.FWRateSpec
  Proofs.FrankWolfeProofs Proofs.FrankWolfeProofs2 Proofs.FrankWolfeProofs3 Proofs.FrankWolfeProofs4 Proofs.FWRate Proofs.FWRate2 Proofs.FWRate3.
Notation mix := FrankWolfe.mix.

Lemma nth_set_at_same {A} i (v : A) l x : (i < length l)%nat -> nth i (set_at i v l) x = v.
Proof. revert i. induction l as [|y l IH]; intros [|i] H; cbn [length] in H; cbn [set_at nth]; try lia; auto. apply IH. lia. Qed.
Lemma nth_set_at_other {A} i j (v : A) l x : i <> j -> nth j (set_at i v l) x = nth j l x.
Proof. revert i j. induction l as [|y l IH]; intros [|i] [|j] H; cbn [set_at nth]; auto; try congruence. Qed.

Section bc.
  Context {X Y : Type} (T : task X Y) (d : nat) (prm : fw_params) (Xs : list X) (Ys : list Y) (bm : bmodel X Y) (R L : Qc).
  Notation SS := (combine Xs Ys). Notation n := (ofN (length Xs)). Notation C := (fw_C prm).
  Hypothesis HN : (0 < length Xs)%nat.
  Hypothesis HC : 0 <= C.
  Hypothesis HU : fw_usable T d Xs Ys bm.
  Hypothesis HE : batch_exact bm T d Xs Ys.
  Hypothesis HB : bounded T R L SS.
  Hypothesis HL : fw_line prm = true.
  Notation D w l := (dual_objective C (length Xs) w l).
  Notation H := (Hf T Xs Ys bm).
  Notation inv := (fw_inv T d prm Xs Ys).
  Notation gapf := (dgap T C Xs Ys bm).
  Notation m := (bm_s bm).
  Notation K := (bc_curvature C R).
  Notation rr := (C * R).
  Definition bgap (w : list Qc) (wm : list (list Qc)) (lm : list Qc) (i : nat) : Qc :=
    dot w (nth i wm []) - C * n * get1 lm i + C * get1 (H w) i.
  Lemma gap_sum st : inv st -> gapf (fs_w st) (fs_l st) = sumn (length Xs) (bgap (fs_w st) (fs_wmat st) (fs_lmat st)).
  Proof.
    intro HI. assert (LM := inv_lengths T d prm Xs Ys (good' T d Xs Ys bm HU) st HI). assert (LW := inv_w_length T d prm Xs Ys (good' T d Xs Ys bm HU) st HI). destruct HI as [I1 [I2 [I3 [I4 [I5 I6]]]]].
    rewrite dgap_eq. unfold bgap. rewrite sumn_plus, sumn_minus, !sumn_mult_l.
    assert (E1 : normsq (fs_w st) = sumn (length Xs) (fun i => dot (fs_w st) (nth i (fs_wmat st) []))).
    { unfold normsq. rewrite I4 at 2. rewrite dot_vsum by auto. rewrite (lsum_map_sumn []), I1. reflexivity. }
    rewrite E1, I5, lsum_get, I2. rewrite (lsum_get (H (fs_w st))), (Hf_length T d Xs Ys bm HU HE) by auto. reflexivity.
  Qed.
  Lemma block_at st i : inv st -> (i < length Xs)%nat -> exists p, nth_error SS i = Some p /\ In p SS /\ sized T d p /\ block_point T d C (length SS) p (nth i (fs_wmat st) [], get1 (fs_lmat st) i).
  Proof.
    intros [I1 [I2 [I3 _]]] Hi. destruct (nth_SS T d Xs Ys bm HN HU i Hi) as [p [E [I S]]]. exists p. split; auto. split; auto. split; auto.
    assert (E2 : nth_error (combine (fs_wmat st) (fs_lmat st)) i = Some (nth i (fs_wmat st) [], get1 (fs_lmat st) i)) by (apply nth_error_combine; apply nth_error_nth'; lia).
    revert E E2 I3. generalize (nth i (fs_wmat st) [], get1 (fs_lmat st) i) as b. generalize (combine (fs_wmat st) (fs_lmat st)) as bs. generalize (length SS). generalize SS. clear Hi I S. intros S' k bs b E E2 I3. revert i E E2. induction I3; intros [|i] E E2; cbn [nth_error] in *; try discriminate; [congruence|]. apply (IHI3 i); auto.
  Qed.
  Lemma block_size st i : inv st -> (i < length Xs)%nat -> length (nth i (fs_wmat st) []) = d /\ normsq (nth i (fs_wmat st) []) <= rr * rr.
  Proof.
    intros HI Hi. destruct (block_at st i HI Hi) as [p [E [I [S Bp]]]]. split; [apply (block_length T d C _ p _ S Bp)|]. apply (block_norm T d C R _ HC p _ S (HR0 T Xs Ys R L HB) (feat_bound T Xs Ys R L HB p I) Bp).
  Qed.
  (** moving w changes a block gap slowly *)
  Lemma bgap_move st w w' r i : inv st -> (i < length Xs)%nat -> length w = d -> length w' = d -> 0 <= r -> normsq (vsub w' w) <= r * r ->
    bgap w' (fs_wmat st) (fs_lmat st) i <= bgap w (fs_wmat st) (fs_lmat st) i + (1 + 1) * rr * r.
  Proof.
    intros HI Hi Hw Hw' Hr Hd. destruct (block_size st i HI Hi) as [LB NB]. unfold bgap.
    assert (Q := mult_le_l C _ _ HC (Hf_lip T d Xs Ys bm R L HN HU HE HB w w' r i Hw Hw' Hr Hd Hi)).
    assert (P : dot (vsub w' w) (nth i (fs_wmat st) []) <= r * rr). { apply dot_le; auto. rewrite vsub_length; congruence. apply (CR_nonneg T C Xs Ys R L HC HB). }
    rewrite dot_vsub_l in P by congruence. replace (C * (get1 (H w) i + r * R)) with (C * get1 (H w) i + r * rr) in Q by ring. replace ((1 + 1) * rr * r) with (r * rr + r * rr) by ring.
    set (a := dot w' _) in *. set (b := dot w _) in *. set (e := C * get1 (H w') i) in *. set (f := C * get1 (H w) i) in *. set (g := C * n * get1 _ i) in *. set (x := r * rr) in *. clearbody a b e f g x. clear - P Q. qclra.
  Qed.
  Lemma K_pos' : 0 < K.
  Proof.
    unfold bc_curvature. assert (A := Qc_sq_nonneg ((1 + 1) * rr)). assert (B := fw_eps_pos). set (a := (1 + 1) * rr * ((1 + 1) * rr)) in *. set (e := fw_eps) in *. clearbody a e. clear - A B. qclra.
  Qed.
  (** one update *)
  Lemma step_rate i st st' : inv st -> fw_step prm m Xs Ys i st = Ok st' -> let a := bgap (fs_w st) (fs_wmat st) (fs_lmat st) i in
    (i < length Xs)%nat /\ 0 <= a /\
    (forall e, 0 <= e -> e <= a -> e <= K -> D (fs_w st) (fs_l st) + e * e / ((1 + 1) * K) <= D (fs_w st') (fs_l st')) /\
    normsq (vsub (fs_w st') (fs_w st)) <= a /\
    bgap (fs_w st) (fs_wmat st') (fs_lmat st') i <= a /\
    (forall j, j <> i -> bgap (fs_w st) (fs_wmat st') (fs_lmat st') j = bgap (fs_w st) (fs_wmat st) (fs_lmat st) j) /\
    fs_k st' = S (fs_k st) /\
    (if fw_avg prm then fs_self_w st' = vmix ((1 + 1) / (ofN (fs_k st) + (1 + 1))) (fs_self_w st) (fs_w st') /\ fs_self_l st' = mix ((1 + 1) / (ofN (fs_k st) + (1 + 1))) (fs_self_l st) (fs_l st')
     else fs_self_w st' = fs_w st' /\ fs_self_l st' = fs_l st').
  Proof.
    intros HI E a. assert (G := good' T d Xs Ys bm HU). assert (LW := inv_w_length T d prm Xs Ys G st HI).
    apply step_split in E. destruct E as [x [y [yh [delta [s [loss [wi [li [E1 [E2 [E3 [E4 [E5 [L1 [L2 ES]]]]]]]]]]]]]]]. cbv zeta in ES.
    assert (Hi : (i < length Xs)%nat) by (apply nth_error_Some; congruence).
    assert (EWI : nth i (fs_wmat st) [] = wi) by (apply nth_error_nth; auto). assert (ELI : get1 (fs_lmat st) i = li) by (apply nth_error_nth; auto).
    assert (NP : nth_error SS i = Some (x, y)) by (apply nth_error_combine; auto).
    destruct (nth_SS T d Xs Ys bm HN HU i Hi) as [p [Ep [Ip Sp]]]. assert (p = (x, y)) by congruence. subst p.
    destruct (proj1 (proj2 HE) (x, y) Ip) as [IM LA]. cbn [fst snd] in IM, LA.
    destruct (find_constraint_hinge m T d x y (fs_w st) IM LW (LA _ LW)) as [yl [s' [EF [EA [HY [Es [_ HH]]]]]]].
    rewrite EF in E3. assert (ED : delta = vsub (t_feat T x y) (t_feat T x yl)) by congruence. assert (EO : loss = t_loss T y yl) by congruence. clear E3.
    assert (EH : get1 (H (fs_w st)) i = s'). { eapply is_hinge_unique; [|exact HH]. apply (hinge_at T d Xs Ys bm HU HE (fs_w st) i (x, y) LW NP). }
    set (ws := vscale C delta) in *. set (ls := loss / n) in *. assert (NZ := ofN_neq0 _ HN).
    assert (LWI : length wi = d) by congruence. assert (LWS : length ws = d) by (unfold ws; rewrite vscale_length; congruence).
    assert (CH : C * s' = C * n * ls - dot (fs_w st) ws). { rewrite Es. unfold ws, ls. rewrite dot_vscale_r, ED, EO. set (z := n) in *. set (q := dot _ _). set (o := t_loss T y yl). clearbody z q o. field. auto. }
    assert (EAA : a = dot (vsub wi ws) (fs_w st) - C * n * (li - ls)).
    { unfold a, bgap. rewrite EWI, ELI, EH, CH. rewrite dot_vsub_l by congruence. rewrite (dot_comm wi), (dot_comm ws). ring. }
    assert (BI : block_point T d C (length SS) (x, y) (wi, li)). { destruct (block_at st i HI Hi) as [p [Ep' [_ [_ Bp]]]]. rewrite EWI, ELI in Bp. assert (p = (x, y)) by congruence. subst p. exact Bp. }
    assert (BW : block_point T d C (length SS) (x, y) (ws, ls)). { unfold ws, ls. rewrite ED, EO, <- (LS' T d Xs Ys bm HU). apply (block_pure T d C (length SS) (x, y) yl Sp HY). }
    assert (AN : 0 <= a).
    { assert (Q := block_bound T d C (length SS) (x, y) (wi, li) (fs_w st) s' ltac:(rewrite (LS' T d Xs Ys bm HU); auto) HC Sp BI HH). cbn [fst snd] in Q. rewrite (LS' T d Xs Ys bm HU) in Q.
      unfold a, bgap. rewrite EWI, ELI, EH. set (u := C * n * li) in *. set (v := dot _ _) in *. set (z := C * s') in *. clearbody u v z. clear - Q. qclra. }
    assert (FB := feat_bound T Xs Ys R L HB (x, y) Ip). assert (R0 := HR0 T Xs Ys R L HB). assert (CR0 := CR_nonneg T C Xs Ys R L HC HB).
    set (B := normsq (vsub wi ws)). assert (BN : 0 <= B) by apply normsq_nonneg.
    assert (BK : B + fw_eps <= K).
    { unfold bc_curvature. apply Qcplus_le_compat; [|apply Qcle_refl]. replace ((1 + 1) * rr * ((1 + 1) * rr)) with ((rr + rr) * (rr + rr)) by ring. apply norm_sub_le; auto; [congruence| |].
      - exact (block_norm T d C R _ HC (x, y) _ Sp R0 FB BI).
      - exact (block_norm T d C R _ HC (x, y) _ Sp R0 FB BW). }
    set (g := step_gamma prm (length Xs) (fs_k st) (fs_w st) wi ws li ls) in *.
    assert (EG : g = clip01 (a / (B + fw_eps))). { unfold g, step_gamma. rewrite HL, EAA. reflexivity. }
    assert (G01 : 0 <= g /\ g <= 1) by (rewrite EG; apply clip01_range). destruct G01 as [G0 G1].
    assert (EW' : fs_w st' = vadd (vsub (fs_w st) wi) (vmix g wi ws)) by (rewrite ES; reflexivity). assert (EL' : fs_l st' = fs_l st - li + mix g li ls) by (rewrite ES; reflexivity).
    assert (EM' : fs_wmat st' = set_at i (vmix g wi ws) (fs_wmat st)) by (rewrite ES; reflexivity). assert (EN' : fs_lmat st' = set_at i (mix g li ls) (fs_lmat st)) by (rewrite ES; reflexivity).
    destruct HI as [I1 [I2 _]].
    split; [exact Hi|]. split; [exact AN|]. split; [|split; [|split; [|split; [|split]]]].
    - intros e He HA HK. rewrite EW', EL', dual_move by congruence. apply Qcplus_le_compat; [apply Qcle_refl|]. rewrite <- EAA. fold B.
      rewrite EG. exact (proj1 (line_gain a B e K AN BN BK He HA HK)).
    - assert (EV : vsub (fs_w st') (fs_w st) = vscale (- g) (vsub wi ws)).
      { assert (LA1 : length (vsub (fs_w st) wi) = d) by (rewrite vsub_length; congruence). assert (LA2 : length (vmix g wi ws) = d) by (rewrite vmix_length; congruence).
        assert (LA3 : length (vadd (vsub (fs_w st) wi) (vmix g wi ws)) = d) by (rewrite vadd_length; congruence). assert (LA4 : length (vsub wi ws) = d) by (rewrite vsub_length; congruence).
        rewrite EW'. apply vec_ext; [rewrite vscale_length, vsub_length; congruence|]. intros k _.
        rewrite get1_vsub by congruence. rewrite get1_vadd by congruence. rewrite get1_vsub, get1_vmix, get1_vscale, get1_vsub by congruence. unfold mix. ring. }
      rewrite EV. unfold normsq. rewrite dot_vscale_l, dot_vscale_r. fold (normsq (vsub wi ws)). fold B. replace (- g * (- g * B)) with (g * g * B) by ring. rewrite EG.
      eapply (proj2 (line_gain a B 0 (B + fw_eps) AN BN (Qcle_refl _) (Qcle_refl _) AN _)).
      Unshelve. assert (EP := fw_eps_pos). set (e := fw_eps) in *. clearbody e. clear - BN EP. qclra.
    - unfold bgap. rewrite EM', EN'. unfold get1 at 1. rewrite !nth_set_at_same by lia. rewrite EH.
      assert (EQ : dot (fs_w st) (vmix g wi ws) - C * n * mix g li ls + C * s' = (1 - g) * a).
      { unfold a, bgap. rewrite EWI, ELI, EH. unfold vmix, mix. rewrite dot_vadd_r, !dot_vscale_r by (rewrite !vscale_length; congruence). rewrite CH. ring. }
      rewrite EQ. replace a with (1 * a) at 2 by ring. apply Qcmult_le_compat_r; auto. clear - G0. qclra.
    - intros j Hj. unfold bgap. rewrite EM', EN'. unfold get1 at 1. rewrite !nth_set_at_other by congruence. reflexivity.
    - rewrite ES. reflexivity.
    - rewrite EW', EL', ES. cbn [fs_self_w fs_self_l]. destruct (fw_avg prm); auto.
  Qed.
  Lemma step_inv' i st st' : inv st -> fw_step prm m Xs Ys i st = Ok st' -> inv st'.
  Proof. intros HI E. eapply (step_inv_ok T d prm Xs Ys (good' T d Xs Ys bm HU) HN m); eauto. apply (proj1 (proj2 (proj2 (proj1 HU)))). Qed.
  Lemma inv_len st : inv st -> length (fs_w st) = d.
  Proof. apply (inv_w_length T d prm Xs Ys (good' T d Xs Ys bm HU)). Qed.
  Lemma inv_feas st : inv st -> dual_feasible T d C SS (fs_w st) (fs_l st).
  Proof. apply inv_feasible. Qed.
  Definition pot (st : fw_state) : Qc := tri (fs_k st) * gapf (fs_self_w st) (fs_self_l st).
  Lemma tri_nonneg k : 0 <= tri k.
  Proof. unfold tri. apply Qchalf_nonneg. apply Qcmult_nonneg; [apply ofN_nonneg|]. assert (A := ofN_nonneg k). set (a := ofN k) in *. clearbody a. qclra. Qed.
  Lemma step_pot i st st' U : fw_avg prm = true -> inv st -> fw_step prm m Xs Ys i st = Ok st' -> gapf (fs_w st') (fs_l st') <= U ->
    pot st' <= pot st + U * (tri (fs_k st') - tri (fs_k st)).
  Proof.
    intros HA HI E HUb. assert (I' := step_inv' i st st' HI E). destruct (step_rate i st st' HI E) as [_ [_ [_ [_ [_ [_ [EK ES]]]]]]]. rewrite HA in ES. destruct ES as [ES1 ES2].
    unfold pot. rewrite ES1, ES2, EK. destruct (rho_range (fs_k st)) as [R0 R1].
    assert (Q := dgap_convex T d C Xs Ys bm HN HC HU HE _ (fs_self_w st) (fs_w st') (fs_self_l st) (fs_l st') R0 R1 (self_w_length T d prm Xs Ys (good' T d Xs Ys bm HU) st HI) (inv_len st' I')).
    apply (mult_le_l (tri (S (fs_k st)))) in Q; [|apply tri_nonneg]. rewrite avg_step in Q. eapply Qcle_trans; [exact Q|].
    rewrite tri_S. replace (U * (tri (fs_k st) + ofN (S (fs_k st)) - tri (fs_k st))) with (ofN (S (fs_k st)) * U) by ring. apply Qcplus_le_compat; [apply Qcle_refl|]. apply mult_le_l; auto. apply ofN_nonneg.
  Qed.

  Variable dl : Qc.
  Hypothesis Hdl : 0 <= dl.
  Hypothesis HdK : dl * dl <= K.
  Notation gain := (bc_gain C R dl).
  Notation cc := ((1 + 1) * rr * dl).
  Lemma cc_nonneg : 0 <= cc.
  Proof. apply Qcmult_nonneg; auto. apply Qcmult_nonneg; [discriminate|apply (CR_nonneg T C Xs Ys R L HC HB)]. Qed.
  (** one pass: either the dual objective rises, or everything stays close and every visited
      block ends up with a small gap *)
  Lemma pass_rate w0 l0 idx : dual_feasible T d C SS w0 l0 -> forall st st' dn, inv st -> fw_pass prm m Xs Ys idx st = Ok st' ->
    normsq (vsub (fs_w st) w0) <= ofN (length dn) * dl * (ofN (length dn) * dl) ->
    (forall i, In i dn -> (i < length Xs)%nat /\ bgap (fs_w st) (fs_wmat st) (fs_lmat st) i <= dl * dl + ofN (length dn) * cc) ->
    D (fs_w st) (fs_l st) + gain <= D (fs_w st') (fs_l st') \/
    (normsq (vsub (fs_w st') w0) <= ofN (length idx + length dn) * dl * (ofN (length idx + length dn) * dl) /\
     (forall i, In i (idx ++ dn) -> (i < length Xs)%nat /\ bgap (fs_w st') (fs_wmat st') (fs_lmat st') i <= dl * dl + ofN (length idx + length dn) * cc) /\
     (fw_avg prm = true -> (length idx + length dn <= length Xs)%nat -> D w0 l0 <= D (fs_w st) (fs_l st) -> gapf w0 l0 <= bc_gap (length Xs) C R dl ->
      pot st' <= pot st + bc_gap' (length Xs) C R dl * (tri (fs_k st') - tri (fs_k st)))).
  Proof.
    intro F0. assert (LW0 := feasible_length _ _ _ _ _ _ (sized' T d Xs Ys bm HU) F0). induction idx as [|i r IH]; intros st st' dn HI E HD HG; cbn [fw_pass] in E.
    - injection E as <-. right. cbn [length Nat.add app]. split; [auto|]. split; [auto|]. intros. apply Qceq_le. ring.
    - apply bind_ok in E. destruct E as [st1 [E1 E]]. destruct (step_rate i st st1 HI E1) as [Hi [A0 [A1 [A2 [A3 [A4 _]]]]]]. set (a := bgap _ _ _ i) in *.
      assert (I1 := step_inv' i st st1 HI E1). assert (LW := inv_len st HI). assert (LW1 := inv_len st1 I1). assert (MR := pass_rises prm Xs Ys m r HL st1 st' E).
      assert (M1 := step_monotone prm m Xs Ys i st st1 HL E1).
      destruct (Qclt_le_dec a (dl * dl)) as [Q|Q].
      2:{ left. specialize (A1 (dl * dl) (Qc_sq_nonneg dl) Q HdK). unfold bc_gain. eapply Qcle_trans; [exact A1|exact MR]. }
      assert (N1 : normsq (vsub (fs_w st1) (fs_w st)) <= dl * dl) by (eapply Qcle_trans; [exact A2|apply Qclt_le_weak; auto]).
      assert (N2 : normsq (vsub (fs_w st1) w0) <= ofN (length (i :: dn)) * dl * (ofN (length (i :: dn)) * dl)).
      { cbn [length]. rewrite ofN_S. replace (vsub (fs_w st1) w0) with (vadd (vsub (fs_w st1) (fs_w st)) (vsub (fs_w st) w0)).
        2:{ apply vec_ext; [rewrite vadd_length; rewrite !vsub_length; congruence|]. intros k _. rewrite get1_vadd by (rewrite !vsub_length; congruence). rewrite !get1_vsub by congruence. ring. }
        replace ((1 + ofN (length dn)) * dl) with (dl + ofN (length dn) * dl) by ring. apply norm_add_le; auto. rewrite !vsub_length; congruence. apply Qcmult_nonneg; auto. apply ofN_nonneg. }
      assert (N3 : forall k, In k (i :: dn) -> (k < length Xs)%nat /\ bgap (fs_w st1) (fs_wmat st1) (fs_lmat st1) k <= dl * dl + ofN (length (i :: dn)) * cc).
      { intros k Hk. assert (Hkl : (k < length Xs)%nat) by (destruct Hk as [<-|Hk]; [auto|apply HG; auto]). split; auto.
        eapply Qcle_trans; [apply (bgap_move st1 (fs_w st) (fs_w st1) dl k I1 Hkl LW LW1 Hdl N1)|]. cbn [length]. rewrite ofN_S.
        assert (CN := cc_nonneg). assert (ON := Qcmult_nonneg _ _ (ofN_nonneg (length dn)) CN).
        assert (Q2 : bgap (fs_w st) (fs_wmat st1) (fs_lmat st1) k <= dl * dl + ofN (length dn) * cc).
        { destruct (Nat.eq_dec k i) as [->|NE].
          - eapply Qcle_trans; [exact A3|]. set (x := dl * dl) in *. set (y := ofN (length dn) * cc) in *. clearbody x y a. clear - Q ON. qclra.
          - rewrite A4 by auto. destruct Hk as [Hk|Hk]; [congruence|]. apply HG; auto. }
        replace ((1 + ofN (length dn)) * cc) with (ofN (length dn) * cc + cc) by ring. set (x := dl * dl) in *. set (y := ofN (length dn) * cc) in *. set (z := bgap _ _ _ _) in *. set (q := cc) in *. clearbody x y z q. clear - Q2. qclra. }
      destruct (IH st1 st' (i :: dn) I1 E N2 N3) as [J|[J1 [J2 J3]]].
      + left. eapply Qcle_trans; [|exact J]. apply Qcplus_le_compat; [exact M1|apply Qcle_refl].
      + right. cbn [length] in *. rewrite Nat.add_succ_r in J1, J2, J3. split; [exact J1|]. split.
        * intros k Hk. apply J2. apply in_or_app. cbn [app In] in Hk. destruct Hk as [<-|Hk]; [right; left; auto|]. apply in_app_or in Hk. destruct Hk; [left; auto|right; right; auto].
        * intros HA HLn HD0 HG0. specialize (J3 HA ltac:(lia) ltac:(eapply Qcle_trans; eauto) HG0).
          assert (G1 : gapf (fs_w st1) (fs_l st1) <= bc_gap' (length Xs) C R dl).
          { set (r0 := n * dl). assert (R0 : 0 <= r0) by (apply Qcmult_nonneg; auto; apply ofN_nonneg).
            assert (N4 : normsq (vsub (fs_w st1) w0) <= r0 * r0).
            { eapply Qcle_trans; [exact N2|]. assert (O := ofN_le' (length (i :: dn)) (length Xs) ltac:(cbn [length]; lia)). assert (ON := ofN_nonneg (length (i :: dn))).
              unfold r0. apply mult_le; try (apply Qcmult_nonneg; auto); apply Qcmult_le_compat_r; auto. }
            assert (PM := prim_move T d C Xs Ys bm R L HN HC HU HE HB w0 l0 (fs_w st1) r0 F0 LW1 R0 N4).
            unfold bc_gap'. unfold dgap in *. unfold r0 in PM. replace ((1 + 1) * rr * (n * (n * dl))) with ((1 + 1) * rr * (n * n * dl)) in PM by ring.
            set (t1 := (1 + 1) * rr * (n * n * dl)) in *. set (t2 := n * dl * (n * dl) / (1 + 1)) in *. set (p1 := prim T C Xs Ys bm (fs_w st1)) in *. set (p0 := prim T C Xs Ys bm w0) in *. set (d0 := D w0 l0) in *. set (d1 := D (fs_w st1) (fs_l st1)) in *. set (ds := D (fs_w st) (fs_l st)) in *. set (e1 := bc_gap _ _ _ _) in *.
            clearbody t1 t2 p1 p0 d0 d1 ds e1. clear - PM HG0 HD0 M1. qclra. }
          assert (SP := step_pot i st st1 _ HA HI E1 G1). set (e2 := bc_gap' _ _ _ _) in *. eapply Qcle_trans; [exact J3|].
          replace (e2 * (tri (fs_k st') - tri (fs_k st))) with (e2 * (tri (fs_k st1) - tri (fs_k st)) + e2 * (tri (fs_k st') - tri (fs_k st1))) by ring. rewrite Qcplus_assoc. apply Qcplus_le_compat; [exact SP|apply Qcle_refl].
  Qed.
  Lemma pass_k idx : forall st st', inv st -> fw_pass prm m Xs Ys idx st = Ok st' -> inv st' /\ fs_k st' = (fs_k st + length idx)%nat.
  Proof.
    induction idx as [|i r IH]; intros st st' HI E; cbn [fw_pass] in E. { injection E as <-. split; [auto|cbn [length]; lia]. }
    apply bind_ok in E. destruct E as [st1 [E1 E]]. destruct (step_rate i st st1 HI E1) as [_ [_ [_ [_ [_ [_ [EK _]]]]]]]. destruct (IH st1 st' (step_inv' i st st1 HI E1) E) as [A B]. split; auto. cbn [length]. lia.
  Qed.
  Lemma pass_pot idx : fw_avg prm = true -> forall st st', inv st -> fw_pass prm m Xs Ys idx st = Ok st' ->
    pot st' <= pot st + worst_gap (length Xs) C R L * (tri (fs_k st') - tri (fs_k st)).
  Proof.
    intro HA. induction idx as [|i r IH]; intros st st' HI E; cbn [fw_pass] in E. { injection E as <-. apply Qceq_le. ring. }
    apply bind_ok in E. destruct E as [st1 [E1 E]]. assert (I1 := step_inv' i st st1 HI E1). specialize (IH st1 st' I1 E).
    assert (SP := step_pot i st st1 _ HA HI E1 (dgap_worst T d C Xs Ys bm R L HN HC HU HE HB _ _ (inv_feas st1 I1))). set (e2 := worst_gap _ _ _ _) in *. eapply Qcle_trans; [exact IH|].
    replace (e2 * (tri (fs_k st') - tri (fs_k st))) with (e2 * (tri (fs_k st1) - tri (fs_k st)) + e2 * (tri (fs_k st') - tri (fs_k st1))) by ring. rewrite Qcplus_assoc. apply Qcplus_le_compat; [exact SP|apply Qcle_refl].
  Qed.
  (** a pass over all samples *)
  Lemma full_pass idx st st' : Permutation idx (seq 0 (length Xs)) -> inv st -> fw_pass prm m Xs Ys idx st = Ok st' ->
    D (fs_w st) (fs_l st) + gain <= D (fs_w st') (fs_l st') \/
    (gapf (fs_w st') (fs_l st') <= bc_gap (length Xs) C R dl /\
     (fw_avg prm = true -> gapf (fs_w st) (fs_l st) <= bc_gap (length Xs) C R dl ->
      pot st' <= pot st + bc_gap' (length Xs) C R dl * (tri (fs_k st') - tri (fs_k st)))).
  Proof.
    intros HP HI E. assert (LI : length idx = length Xs) by (rewrite (Permutation_length HP), seq_length; reflexivity). destruct (pass_k idx st st' HI E) as [I' _].
    destruct (pass_rate (fs_w st) (fs_l st) idx (inv_feas st HI) st st' [] HI E) as [Q|[_ [Q2 Q3]]].
    - cbn [length]. rewrite ofN_0. replace (0 * dl * (0 * dl)) with 0 by ring. unfold normsq. rewrite dot_vsub_l, !dot_vsub_r by reflexivity. apply Qceq_le. ring.
    - intros i [].
    - left; auto.
    - right. rewrite Nat.add_0_r, app_nil_r, LI in *. split.
      + rewrite gap_sum by auto. unfold bc_gap. replace (n * (dl * dl) + (1 + 1) * rr * (n * n * dl)) with (n * (dl * dl + n * cc)) by ring. rewrite <- (sumn_const (length Xs)). apply sumn_le.
        intros i Hi. apply Q2. eapply Permutation_in; [apply Permutation_sym; exact HP|]. apply in_seq. lia.
      + intros HA HG0. apply Q3; [auto|lia|apply Qcle_refl|auto].
  Qed.
End bc.

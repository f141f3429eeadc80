From Verif Require Import Model.OneSlack Spec.OneSlackSpec Spec.CuttingPlaneSpec Proofs.Arrays Proofs.LossProofs Proofs.MaxProdProofs Proofs.CRFProofs Proofs.LearnerProofs
  Proofs.QPProofs Proofs.QPProofs2 Proofs.NSlackProofs Proofs.NSlackProofs2 Proofs.NSlackProofs4 Proofs.NSlackProofs5 Proofs.PerceptronProofs4 Proofs.OneSlackQP Proofs.OneSlackPrune
  Proofs.OneSlackCache Proofs.OneSlackProofs Proofs.OneSlackProofs2 Proofs.CuttingPlane.

Lemma check_bad_false prm brk w sl viol dj loss old : os_check_bad prm brk w sl viol dj loss old = Ok false -> sl + o_tol prm <= viol.
Proof.
  unfold os_check_bad. intro H. match type of H with match ?b with _ => _ end = _ => destruct b; [discriminate|] end.
  destruct (Qcltb_spec (viol - sl) (o_tol prm)) as [A|A]; [discriminate|]. qclra.
Qed.
Lemma prune0 {A} prm (cs cs' : list A) al al' a : o_window prm = O -> os_prune prm cs al a = Ok (cs', al') -> cs' = cs.
Proof. intros HW H. unfold os_prune in H. apply bind_ok in H. destruct H as [u [_ H]]. rewrite HW in H. cbn in H. congruence. Qed.

Section rounds.
Context {X Y : Type} (T : task X Y) (d : nat) (Xs : list X) (Ys : list Y).
Hypothesis G : good T d Xs Ys.
Hypothesis HN : (0 < length Xs)%nat.
Context (ceq : Y -> Y -> res bool) (solve : qp_solver) (prm : os_params).
Let n := length Xs.
Let K := o_C prm * ofN n.
Let gt := feat_sum T d Xs Ys.
Variables (R2 L rho : Qc).
Hypothesis HC : 0 < o_C prm.
Hypothesis HT : 0 < o_tol prm.
Hypothesis HR : 0 < R2.
Hypothesis HW : o_window prm = O.
Hypothesis HNeg : o_neg prm = None.
Hypothesis HX : qp_exact solve.
Hypothesis HRho : 0 <= rho.
Hypothesis HReg : (forall cs p, one_slack_problem (o_C prm) None n (map fst cs) (map snd cs) 0 = Ok p -> solve p <> None) \/
                  qp_reg * (K * K) / (1 + 1) <= rho.
Hypothesis HB : forall Yh c, mean_con T d Xs Ys Yh c -> normsq (fst c) <= R2 /\ snd c <= L.

Lemma K_pos : 0 < K.
Proof. apply Qcmult_pos; auto. apply ofN_pos. exact HN. Qed.
Lemma sound : qp_sound solve.
Proof. intros p x v H. destruct (HX p x v H) as [[A _] B]. auto. Qed.

Lemma from_cache_slack (m : smodel X Y) st c : length (o_w st) = d -> sm_size m = d -> cache_valid T Xs Ys (o_icache st) -> from_cache prm m n gt st = Ok (Some c) ->
  o_slack st + o_tol prm <= violation (o_w st) c.
Proof.
  intros Hw Hm HV H. destruct (from_cache_con T d Xs Ys G HN prm m st c Hm HV H) as [Yh HM].
  assert (CL := con_length T d Xs Ys G Yh c HM).
  unfold from_cache in H. destruct (o_icache st) as [[|s cache]|]; try discriminate.
  apply bind_ok in H. destruct H as [p [_ H]]. apply bind_ok in H. destruct H as [o [_ H]].
  match type of H with (if ?b then _ else _) = _ => destruct b; [discriminate|] end.
  apply bind_ok in H. destruct H as [best [_ H]]. apply bind_ok in H. destruct H as [acc [_ H]]. apply bind_ok in H. destruct H as [dj [_ H]].
  apply bind_ok in H. destruct H as [dd [ED H]]. apply bind_ok in H. destruct H as [bad [EB H]]. destruct bad; [discriminate|].
  injection H as <-. cbn [fst] in CL. rewrite np_dot_ok in ED by congruence. injection ED as <-. apply check_bad_false in EB. exact EB.
Qed.

Lemma solve1_inv' (cs : list ocon) alphas w obj cs' alphas' :
  solve_1_slack_qp solve prm n cs alphas = Ok (w, obj, cs', alphas') ->
  exists a reg p, (reg = 0 \/ reg = qp_reg /\ qp_reg * (K * K) / (1 + 1) <= rho) /\
    one_slack_problem (o_C prm) None n (map fst cs) (map snd cs) reg = Ok p /\
    solve p = Some (a, - obj) /\ cs' = cs /\ weights a (map fst cs) = Ok w.
Proof.
  intro H. unfold solve_1_slack_qp in H. apply bind_ok in H. destruct H as [[a o] [ER H]]. apply bind_ok in H. destruct H as [[c1 c2] [EP H]].
  apply bind_ok in H. destruct H as [w0 [EW H]]. cbn [fst snd] in *. injection H as <- <- <- <-. apply prune0 in EP; auto. subst c1. rewrite HNeg in ER.
  unfold run_qp in ER. apply bind_ok in ER. destruct ER as [p [Ep ER]].
  destruct (solve p) as [[a' v]|] eqn:ES.
  - injection ER as <- <-. exists a', 0, p. repeat (split; auto). rewrite ES. f_equal. f_equal. ring.
  - apply bind_ok in ER. destruct ER as [p' [Ep' ER]]. destruct (solve p') as [[a' v]|] eqn:ES'; [|discriminate].
    injection ER as <- <-. exists a', qp_reg, p'. repeat (split; auto).
    + right. split; auto. destruct HReg as [Q|Q]; auto. exfalso. exact (Q _ _ Ep ES).
    + rewrite ES'. f_equal. f_equal. ring.
Qed.

Definition delta : Qc := gain K (o_tol prm) R2 - rho.
Definition rounds (st : os_state Y) : Prop :=
  inv T d Xs Ys prm [] st /\ In (vzero d, 0) (o_cons st) /\
  ((o_curve st = [] /\ o_cons st = [(vzero d, 0)]) \/
   exists a obj, o_obj st = Some obj /\ (0 < length (o_curve st))%nat /\ dual1_ok d K None (o_cons st) a /\
     o_w st = comb d a (map fst (o_cons st)) /\ obj <= dual1_value d (o_cons st) a /\
     ofN (length (o_curve st) - 1) * delta - rho <= obj).

Lemma valid_R2 cs : valid_cons T d Xs Ys cs -> Forall (fun c => normsq (fst c) <= R2) cs.
Proof. intro H. eapply Forall_impl; [|exact H]. intros c [Yh HM]. apply (HB Yh c HM). Qed.

Lemma step_rounds st cached c Yh st' : rounds st -> mean_con T d Xs Ys Yh c ->
  (o_curve st <> [] -> o_slack st + o_tol prm <= violation (o_w st) c) ->
  os_step solve prm n cached c st = Ok st' -> rounds st' /\ length (o_curve st') = S (length (o_curve st)).
Proof.
  intros [II [IG IR]] HM HV H. assert (HC' : 0 <= o_C prm) by (apply Qclt_le_weak; auto).
  destruct (step_inv T d Xs Ys G HN solve prm HC' [] st cached c Yh st' sound II HM H) as [II' _].
  unfold os_step in H.
  apply bind_ok in H. destruct H as [q [_ H]]. apply bind_ok in H. destruct H as [[[[w obj] cs'] al'] [ES H]].
  assert (VC : valid_cons T d Xs Ys (o_cons st ++ [c])). { apply Forall_app. split; [apply II|]. constructor; eauto. }
  set (cs := o_cons st ++ [c]) in *. apply solve1_inv' in ES. destruct ES as [a [reg [p [Hr [EP [ESv [-> EW]]]]]]].
  assert (HF := valid_len T d Xs Ys G _ VC). assert (VR := valid_R2 _ VC).
  apply bind_ok in H. destruct H as [vs [_ H]]. apply bind_ok in H. destruct H as [s [_ H]]. injection H as <-.
  split; [|cbn [o_curve]; rewrite app_length; cbn; lia].
  split; [exact II'|]. cbn [o_curve o_cons o_obj o_w]. split; [unfold cs; apply in_or_app; auto|]. right.
  destruct (HX _ _ _ ESv) as [[FE OPT] VA]. destruct (oslack_feasible d _ _ _ _ _ _ a HF EP) as [FI QV]. apply FI in FE.
  assert (La : length a = length cs) by apply FE.
  assert (RG : 0 <= reg). { destruct Hr as [->|[-> _]]; [apply Qcle_refl|apply qp_reg_nonneg]. }
  assert (Eobj : obj = dual1_value d cs a - reg * normsq a / (1 + 1)). { specialize (QV La). replace obj with (- - obj) by ring. rewrite VA, QV. ring. }
  assert (LB : forall b, dual1_ok d K None cs b -> dual1_value d cs b - rho <= obj).
  { intros b Hb. destruct (oslack_feasible d _ _ _ _ _ _ b HF EP) as [FIb QVb]. specialize (OPT b (proj2 FIb Hb)). rewrite <- VA, QVb in OPT by apply Hb.
    assert (RB : reg * normsq b / (1 + 1) <= rho).
    { destruct Hr as [->|[-> Q]]. { unfold Qcdiv. rewrite !Qcmult_0_l. exact HRho. }
      eapply Qcle_trans; [|exact Q]. unfold Qcdiv. apply Qcmult_le_compat_r; [|discriminate]. rewrite !(Qcmult_comm qp_reg). apply Qcmult_le_compat_r; [|apply qp_reg_nonneg].
      destruct Hb as [Lb [B0 [BS _]]]. rewrite <- BS. apply normsq_sum_le. rewrite Lb. exact B0. }
    set (x := reg * normsq b / (1 + 1)) in *. set (y := dual1_value d cs b) in *. clearbody x y. clear - RB OPT. qclra. }
  exists a, obj. split; auto. split; [rewrite app_length; cbn; lia|]. split; [exact FE|]. split.
  { assert (E := weights_comb d a (map fst cs)). rewrite E in EW; [congruence| | |rewrite map_length; auto].
    - apply map_fst_nonempty. apply (oslack_nonempty _ _ _ _ _ _ EP).
    - apply ocons_len; auto. }
  split. { rewrite Eobj. assert (Q := reg_half_nonneg reg a RG). set (x := reg * normsq a / (1 + 1)) in *. clearbody x. qclra. }
  rewrite app_length. cbn [length]. replace (length (o_curve st) + 1 - 1)%nat with (length (o_curve st)) by lia.
  destruct IR as [[E0 E1]|[a0 [obj0 [F1 [F2 [F3 [F4 [F5 F6]]]]]]]].
  - rewrite E0. cbn [length]. rewrite ofN_0. set (b := unit_at (length cs) 0 K).
    assert (Ec : cs = [(vzero d, 0); c]) by (unfold cs; rewrite E1; reflexivity).
    assert (Hb : dual1_ok d K None cs b).
    { split; [apply tab1_length|]. split; [|split; [|discriminate]].
      - intros i Hi. apply unit_nonneg; auto. apply Qclt_le_weak, K_pos.
      - apply unit_sum. rewrite Ec. cbn. lia. }
    assert (V0 : dual1_value d cs b = 0).
    { unfold dual1_value. assert (CZ : comb d b (map fst cs) = vzero d).
      { apply vec_ext; [rewrite comb_length, vzero_length; auto|]. intros i Hi. rewrite comb_length in Hi. rewrite get1_vzero. unfold comb. rewrite get1_tab1 by auto.
        rewrite map_length. unfold b. rewrite (sum_unit (length cs) 0 K (fun k => get1 (nth k (map fst cs) []) i)) by (rewrite Ec; cbn; lia).
        rewrite Ec. cbn [map fst nth]. rewrite get1_vzero. ring. }
      rewrite CZ. unfold normsq. rewrite dot_vzero_l. rewrite dot_comm, dot_get by (unfold b, unit_at; rewrite tab1_length, map_length; auto).
      unfold b at 1. unfold unit_at at 1. rewrite tab1_length. unfold b. rewrite (sum_unit (length cs) 0 K (fun k => get1 (map snd cs) k)) by (rewrite Ec; cbn; lia).
      rewrite Ec. cbn [map snd get1 nth]. unfold Qcdiv. ring. }
    specialize (LB b Hb). rewrite V0 in LB. set (x := 0 * delta). replace x with 0 by (unfold x; ring). exact LB.
  - assert (NE : o_curve st <> []) by (intro Z; rewrite Z in F2; cbn in F2; lia). specialize (HV NE).
    destruct II as [_ [_ [_ [_ [_ I6]]]]]. destruct (I6 obj0 F1) as [_ [_ [v [WV SV]]]].
    destruct (progress d K R2 (o_tol prm) K_pos HR HT (o_cons st) a0 (o_slack st) c HF VR F3) as [b [Hb PB]].
    + rewrite <- F4. intros c' Hc'. rewrite SV. eapply Qcle_trans; [|apply Qcmax_ge_l]. apply WV. auto.
    + rewrite <- F4. exact HV.
    + specialize (LB b Hb). fold cs in PB. destruct (length (o_curve st)) as [|m]; [lia|]. cbn [Nat.sub] in F6. rewrite Nat.sub_0_r in F6. rewrite ofN_S.
      unfold delta in *. replace ((1 + ofN m) * (gain K (o_tol prm) R2 - rho)) with (ofN m * (gain K (o_tol prm) R2 - rho) + (gain K (o_tol prm) R2 - rho)) by ring.
      set (x1 := ofN m * (gain K (o_tol prm) R2 - rho)) in *. set (x2 := gain K (o_tol prm) R2) in *. set (x3 := dual1_value d (o_cons st) a0) in *. set (x4 := dual1_value d cs b) in *.
      clearbody x1 x2 x3 x4. clear - LB PB F5 F6. qclra.
Qed.

Definition extra (sw : option (bmodel X Y)) : nat := match sw with Some _ => 1 | None => 0 end.
Lemma loop_rounds k : forall bm sw st st' reason bm', usable T d prm Xs Ys bm -> (forall b, sw = Some b -> usable T d prm Xs Ys b) -> rounds st ->
  os_loop ceq solve prm Xs Ys gt k bm sw st = Ok (st', reason, bm') ->
  rounds st' /\ (reason = OSMaxIter -> (length (o_curve st) + k <= length (o_curve st') + extra sw)%nat).
Proof.
  induction k as [|k IH]; intros bm sw st st' reason bm' HU HSW HI H; cbn [os_loop] in H.
  { injection H as <- <- <-. split; auto. intros _. lia. }
  destruct HU as [HB1 HB2]. assert (Hw : length (o_w st) = d) by apply HI. assert (CV0 : cache_valid T Xs Ys (o_icache st)) by apply HI.
  apply bind_ok in H. destruct H as [oc [EC H]]. destruct oc as [c|].
  - apply bind_ok in H. destruct H as [st1 [E1 H]].
    destruct (from_cache_con T d Xs Ys G HN prm (bm_s bm) st c (proj1 HB1) CV0 EC) as [Yh HM].
    assert (FS := from_cache_slack (bm_s bm) st c Hw (proj1 HB1) CV0 EC).
    destruct (step_rounds st true c Yh st1 HI HM (fun _ => FS) E1) as [A1 A2].
    destruct (IH bm sw st1 st' reason bm' (conj HB1 HB2) HSW A1 H) as [B1 B2]. split; auto. intro E. specialize (B2 E). lia.
  - apply bind_ok in H. destruct H as [r [EF H]].
    destruct (find_new_form T d Xs Ys G HN prm bm _ _ _ _ HB1 Hw EF) as [Yh [c [bad [EY [HM [EBd Er]]]]]].
    destruct bad; subst r.
    + destruct sw as [b|].
      * destruct (IH b None st st' reason bm' (HSW b eq_refl) ltac:(discriminate) HI H) as [B1 B2]. split; auto. intro E. specialize (B2 E). cbn [extra] in *. lia.
      * injection H as <- <- <-. split; auto. discriminate.
    + apply bind_ok in H. destruct H as [cache [EU H]]. apply bind_ok in H. destruct H as [st1 [E1 H]].
      assert (CV := update_cache_valid T d Xs Ys ceq prm bm _ _ _ HB1 HB2 (proj1 HM) EU CV0).
      match type of E1 with os_step _ _ _ _ _ ?s = _ => set (st0 := s) in * end.
      assert (HI0 : rounds st0). { destruct HI as [[J1 [J2 [J3 [J4 [J5 J6]]]]] J7]. split; [|exact J7]. repeat (split; auto). }
      apply check_bad_false in EBd.
      destruct (step_rounds st0 false c Yh st1 HI0 HM (fun _ => EBd) E1) as [A1 A2].
      destruct (IH bm sw st1 st' reason bm' (conj HB1 HB2) HSW A1 H) as [B1 B2]. split; auto. intro E. specialize (B2 E). cbn [st0 o_curve] in A2. lia.
Qed.

Lemma rounds_bound st : rounds st -> ofN (length (o_curve st) - 1) * delta <= K * L + rho.
Proof.
  intros [II [IG IR]]. assert (VC : valid_cons T d Xs Ys (o_cons st)) by apply II.
  assert (L0 : 0 <= L). { destruct (HB Ys (vzero d, 0) (gt_con T d Xs Ys G)) as [_ Q]. exact Q. }
  destruct IR as [[E0 E1]|[a0 [obj0 [F1 [F2 [F3 [F4 [F5 F6]]]]]]]].
  - rewrite E0. cbn [length]. assert (Q := Qcmult_nonneg _ _ (Qclt_le_weak _ _ K_pos) L0). replace (ofN (0 - 1)) with 0 by (symmetry; apply ofN_0).
    replace (0 * delta) with 0 by ring. set (x := K * L) in *. clearbody x. clear - Q HRho. qclra.
  - assert (W := weak1 d K None (o_cons st) a0 (vzero d) L (valid_len T d Xs Ys G _ VC) F3 (vzero_length d)).
    assert (W' : dual1_value d (o_cons st) a0 <= K * L + normsq (vzero d) / (1 + 1)).
    { apply W. intros c Hc. unfold valid_cons in VC. rewrite Forall_forall in VC. destruct (VC c Hc) as [Yh HM].
      unfold violation. rewrite dot_vzero_l. destruct (HB Yh c HM) as [_ Q]. set (x := snd c) in *. clearbody x. clear - Q. qclra. }
    unfold normsq in W'. rewrite dot_vzero_l in W'. replace (0 / (1 + 1)) with 0 in W' by (unfold Qcdiv; ring).
    set (x1 := ofN (length (o_curve st) - 1) * delta) in *. set (x2 := K * L) in *. set (x3 := dual1_value d (o_cons st) a0) in *. clearbody x1 x2 x3. clear - W' F5 F6. qclra.
Qed.

Lemma fit_rounds bm sw st reason : usable T d prm Xs Ys bm -> (forall b, sw = Some b -> usable T d prm Xs Ys b) ->
  os_fit ceq solve prm bm sw Xs Ys Cold = Ok (st, reason) ->
  In (vzero d, 0) (o_cons st) /\ ofN (length (o_curve st) - 2) * delta <= K * L + rho /\
  (reason = OSMaxIter -> (o_max_iter prm + 1 <= length (o_curve st) + extra sw)%nat) /\
  (K * L + rho < ofN (o_max_iter prm - 1 - extra sw) * delta -> reason = OSNoConstraint).
Proof.
  intros HU HSW H. apply (fit_split T d) in H; auto. destruct H as [s0 [st0 [bm' [p [obj [E0 [EL [EP [EO ->]]]]]]]]].
  cbn [os_start] in E0. injection E0 as <-.
  match type of EL with os_loop _ _ _ _ _ _ _ _ _ ?s = _ => set (s0 := s) in * end.
  assert (R0 : rounds s0).
  { split; [|split; [left; reflexivity|left; split; reflexivity]].
    destruct (start_inv T d Xs Ys G prm [] Cold I) as [s1 [E1 [I1 _]]]; auto. { intros a [Z|Z]; discriminate. } cbn [os_start] in E1. injection E1 as <-. exact I1. }
  destruct (loop_rounds _ bm sw s0 st0 reason bm' HU HSW R0 EL) as [A1 A2]. cbn [s0 o_curve length Nat.add] in A2.
  assert (BD := rounds_bound st0 A1). cbn [o_cons o_curve]. rewrite app_length. cbn [length].
  replace (length (o_curve st0) + 1 - 2)%nat with (length (o_curve st0) - 1)%nat by lia.
  split; [apply A1|]. split; [exact BD|]. split. { intro E. specialize (A2 E). lia. }
  intro Q. destruct reason; auto. exfalso. specialize (A2 eq_refl).
  assert (L0 : 0 <= L). { destruct (HB Ys (vzero d, 0) (gt_con T d Xs Ys G)) as [_ Z]. exact Z. }
  assert (P0 := Qcmult_nonneg _ _ (Qclt_le_weak _ _ K_pos) L0).
  assert (DP : 0 <= delta).
  { destruct (Qclt_le_dec delta 0) as [Z|Z]; auto. exfalso. assert (M : ofN (o_max_iter prm - 1 - extra sw) * delta <= 0).
    { assert (W := Qcmult_nonneg _ _ (ofN_nonneg (o_max_iter prm - 1 - extra sw)) (ltac:(qclra) : 0 <= - delta)).
      replace (ofN (o_max_iter prm - 1 - extra sw) * - delta) with (- (ofN (o_max_iter prm - 1 - extra sw) * delta)) in W by ring.
      set (x := ofN (o_max_iter prm - 1 - extra sw) * delta) in *. clearbody x. clear - W. qclra. }
    set (x := ofN (o_max_iter prm - 1 - extra sw) * delta) in *. set (y := K * L) in *. clearbody x y. clear - M Q P0 HRho. qclra. }
  assert (M : ofN (o_max_iter prm - 1 - extra sw) <= ofN (length (o_curve st0) - 1)) by (apply ofN_le; lia).
  apply (Qcmult_le_compat_r _ _ delta) in M; auto.
  set (x := ofN (o_max_iter prm - 1 - extra sw) * delta) in *. set (y := K * L) in *. set (z := ofN (length (o_curve st0) - 1) * delta) in *. clearbody x y z. clear - M Q BD. qclra.
Qed.
End rounds.

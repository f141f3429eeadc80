From Verif Require Import Proofs.Arrays Proofs.LossProofs Proofs.CRFProofs Proofs.LearnerProofs
  Proofs.UnstructuredProofs2 Proofs.OneSlackProofs Proofs.OneSlackProofs2 Model.FrankWolfe Spec.FrankWolfeSpec Proofs.FrankWolfeProofs.
Notation mix := FrankWolfe.mix.

(** ** line search *)
Lemma fw_eps_pos : 0 < fw_eps. Proof. vm_compute. reflexivity. Qed.
Lemma clip01_range g : 0 <= clip01 g /\ clip01 g <= 1.
Proof.
  unfold clip01. split; [apply Qcmax_ge_l|]. apply Qcmax_lub; [discriminate|]. unfold Qcmin. destruct (Qcleb_spec 1 g) as [Q|Q]; [apply Qcle_refl|].
  apply Qclt_le_weak. auto.
Qed.
Lemma clip01_cases g : (clip01 g = 0 /\ g <= 0) \/ (clip01 g = 1 /\ 1 <= g) \/ clip01 g = g.
Proof.
  unfold clip01, Qcmin. destruct (Qcleb_spec 1 g) as [Q|Q].
  - right. left. split; auto.
  - unfold Qcmax. destruct (Qcleb_spec 0 g) as [R|R]; [right; right; auto|]. left. split; auto. apply Qclt_le_weak. auto.
Qed.
(** a Frank-Wolfe step of the quadratic g A - g^2 B / 2 *)
Lemma line_search A B : 0 <= B -> let g := clip01 (A / (B + fw_eps)) in
  0 <= g * A - g * g * B / (1 + 1) /\
  forall h, 0 <= h -> h <= 1 -> h * A - h * h * B / (1 + 1) <= g * A - g * g * B / (1 + 1) + fw_eps / (1 + 1).
Proof.
  intros HB g. assert (P := fw_eps_pos). set (e := fw_eps) in *. clearbody e.
  assert (K : 0 < B + e) by qclra. assert (KZ : B + e <> 0) by (intro Z; rewrite Z in K; discriminate).
  set (a := A / (B + e)) in *. assert (EA : A = a * (B + e)) by (unfold a; field; auto). clearbody a. subst A.
  destruct (clip01_range a) as [G0 G1]. fold g in G0, G1.
  assert (V : forall h, 0 <= h -> h <= 1 -> 0 <= (g - h) * (a - g)).
  { intros h H0 H1. destruct (clip01_cases a) as [[E Q]|[[E Q]|E]]; fold g in E.
    - rewrite E. replace ((0 - h) * (a - 0)) with (h * (0 - a)) by ring. apply Qcmult_nonneg; auto. qclra.
    - rewrite E. apply Qcmult_nonneg; qclra.
    - rewrite E. replace ((a - h) * (a - a)) with 0 by ring. apply Qcle_refl. }
  assert (O : forall h, 0 <= h -> h <= 1 -> 0 <= (g * (a * (B + e)) - g * g * (B + e) / (1 + 1)) - (h * (a * (B + e)) - h * h * (B + e) / (1 + 1))).
  { intros h H0 H1. replace (_ - _) with ((B + e) * ((g - h) * (a - g)) + (B + e) * ((g - h) * (g - h) / (1 + 1))) by (field; discriminate).
    assert (Q1 := V h H0 H1). assert (Q2 : 0 <= (g - h) * (g - h) / (1 + 1)) by (apply Qchalf_nonneg, Qc_sq_nonneg).
    apply Qcle_trans with (0 + 0); [discriminate|]. apply Qcplus_le_compat; apply Qcmult_nonneg; auto; apply Qclt_le_weak; auto. }
  split.
  - specialize (O 0 (Qcle_refl 0) ltac:(discriminate)).
    replace (_ - _) with (g * (a * (B + e)) - g * g * B / (1 + 1) - g * g * e / (1 + 1)) in O by (field; discriminate).
    assert (Q : 0 <= g * g * e / (1 + 1)). { apply Qchalf_nonneg. apply Qcmult_nonneg; [apply Qc_sq_nonneg|apply Qclt_le_weak; auto]. }
    set (u := g * (a * (B + e))) in *. set (v := g * g * B / (1 + 1)) in *. set (z := g * g * e / (1 + 1)) in *. clearbody u v z. qclra.
  - intros h H0 H1. specialize (O h H0 H1).
    replace (g * (a * (B + e)) - g * g * (B + e) / (1 + 1) - (h * (a * (B + e)) - h * h * (B + e) / (1 + 1)))
      with ((g * (a * (B + e)) - g * g * B / (1 + 1)) - (h * (a * (B + e)) - h * h * B / (1 + 1)) + (h * h * e / (1 + 1) - g * g * e / (1 + 1))) in O by (field; discriminate).
    assert (Q : 0 <= g * g * e / (1 + 1)). { apply Qchalf_nonneg. apply Qcmult_nonneg; [apply Qc_sq_nonneg|apply Qclt_le_weak; auto]. }
    assert (R : 0 <= (1 - h * h) * e / (1 + 1)).
    { apply Qchalf_nonneg. apply Qcmult_nonneg; [|apply Qclt_le_weak; auto]. replace (1 - h * h) with ((1 - h) * (1 + h)) by ring. apply Qcmult_nonneg; qclra. }
    replace ((1 - h * h) * e / (1 + 1)) with (e / (1 + 1) - h * h * e / (1 + 1)) in R by (field; discriminate).
    set (u := g * (a * (B + e)) - g * g * B / (1 + 1)) in *. set (v := h * (a * (B + e)) - h * h * B / (1 + 1)) in *.
    set (z := g * g * e / (1 + 1)) in *. set (y := h * h * e / (1 + 1)) in *. set (k := e / (1 + 1)) in *. clearbody u v z y k. qclra.
Qed.

(** the dual objective after moving a block from [wi] towards [ws] *)
Lemma dual_move C n w l wi ws li ls g : length w = length wi -> length wi = length ws ->
  dual_objective C n (vadd (vsub w wi) (vmix g wi ws)) (l - li + mix g li ls) =
  dual_objective C n w l + (g * (dot (vsub wi ws) w - C * ofN n * (li - ls)) - g * g * normsq (vsub wi ws) / (1 + 1)).
Proof.
  intros H1 H2. unfold dual_objective.
  assert (E : vadd (vsub w wi) (vmix g wi ws) = vsub w (vscale g (vsub wi ws))).
  { apply vec_ext.
    - assert (A1 : length (vsub w wi) = length w) by (apply vsub_length; auto). assert (A2 : length (vmix g wi ws) = length wi) by (apply vmix_length; auto).
      assert (A3 : length (vsub wi ws) = length wi) by (apply vsub_length; auto).
      rewrite vadd_length by congruence. rewrite A1, vsub_length; auto. rewrite vscale_length. congruence.
    - intros i _. rewrite get1_vadd by (rewrite vsub_length, vmix_length; congruence).
      rewrite !get1_vsub by (rewrite ?vscale_length, ?vsub_length; congruence). rewrite get1_vmix by auto. rewrite get1_vscale, get1_vsub by auto.
      unfold mix. ring. }
  rewrite E. set (u := vsub wi ws). assert (LU : length u = length w) by (unfold u; rewrite vsub_length; congruence).
  unfold normsq. rewrite dot_vsub_l, !dot_vsub_r, !dot_vscale_l, !dot_vscale_r by (rewrite ?vscale_length; auto). rewrite (dot_comm w u).
  unfold mix. set (a := dot w w). set (b := dot u w). set (c := dot u u). set (z := ofN n). clearbody a b c z. field. discriminate.
Qed.

Definition step_gamma (prm : fw_params) (n k : nat) (w wi ws : list Qc) (li ls : Qc) : Qc :=
  if fw_line prm then clip01 ((dot (vsub wi ws) w - fw_C prm * ofN n * (li - ls)) / (normsq (vsub wi ws) + fw_eps))
  else (1 + 1) * ofN n / (ofN k + (1 + 1) * ofN n).
Lemma step_split {X Y} (prm : fw_params) (m : smodel X Y) Xs Ys i st st' : fw_step prm m Xs Ys i st = Ok st' ->
  exists x y yh delta s loss wi li, nth_error Xs i = Some x /\ nth_error Ys i = Some y /\
    find_constraint m x y (fs_w st) None true = Ok (yh, delta, s, loss) /\
    nth_error (fs_wmat st) i = Some wi /\ nth_error (fs_lmat st) i = Some li /\
    length (fs_w st) = length wi /\ length wi = length delta /\
    let ws := vscale (fw_C prm) delta in let ls := loss / ofN (length Xs) in
    let g := step_gamma prm (length Xs) (fs_k st) (fs_w st) wi ws li ls in
    let w2 := vadd (vsub (fs_w st) wi) (vmix g wi ws) in let l2 := fs_l st - li + mix g li ls in
    let rho := (1 + 1) / (ofN (fs_k st) + (1 + 1)) in
    st' = FWState w2 (set_at i (vmix g wi ws) (fs_wmat st)) (set_at i (mix g li ls) (fs_lmat st)) l2 (S (fs_k st))
        (if fw_avg prm then vmix rho (fs_self_w st) w2 else w2) (if fw_avg prm then mix rho (fs_self_l st) l2 else l2).
Proof.
  unfold fw_step. intro H. apply bind_ok in H. destruct H as [x [Ex H]]. apply bind_ok in H. destruct H as [y [Ey H]].
  apply bind_ok in H. destruct H as [[[[yh delta] s] loss] [Ec H]]. apply bind_ok in H. destruct H as [wi [Ew H]].
  apply bind_ok in H. destruct H as [li [El H]]. apply bind_ok in H. destruct H as [g [Eg H]].
  apply bind_ok in H. destruct H as [w1 [E1 H]]. apply bind_ok in H. destruct H as [u [Eu H]]. apply bind_ok in H. destruct H as [w2 [E2 H]].
  apply ensure_ok in Eu. apply Nat.eqb_eq in Eu. rewrite vscale_length in Eu. unfold np_vsub in E1. destruct (Nat.eqb_spec (length (fs_w st)) (length wi)) as [L|L]; [|discriminate E1].
  injection E1 as <-. unfold np_vadd in E2. match type of E2 with (if ?b then _ else _) = _ => destruct b; [|discriminate E2] end. injection E2 as <-.
  exists x, y, yh, delta, s, loss, wi, li. split; [apply index_ok; auto|]. split; [apply index_ok; auto|]. split; [auto|].
  split; [apply index_ok; auto|]. split; [apply index_ok; auto|]. split; [auto|]. split; [auto|]. cbv zeta.
  assert (EG : g = step_gamma prm (length Xs) (fs_k st) (fs_w st) wi (vscale (fw_C prm) delta) li (loss / ofN (length Xs))).
  { unfold step_gamma. destruct (fw_line prm); [|congruence]. unfold np_vsub in Eg. rewrite vscale_length, Eu, Nat.eqb_refl in Eg. cbn [bind] in Eg.
    apply bind_ok in Eg. destruct Eg as [dd [Ed Eg]]. rewrite np_dot_ok in Ed by (rewrite vsub_length; rewrite ?vscale_length; congruence). congruence. }
  rewrite EG in H. injection H as <-. reflexivity.
Qed.
Lemma gamma_range prm n k w wi ws li ls : (0 < n)%nat -> let g := step_gamma prm n k w wi ws li ls in 0 <= g /\ g <= 1.
Proof.
  intros HN g. unfold g, step_gamma. destruct (fw_line prm); [apply clip01_range|].
  assert (P := ofN_pos n HN). assert (Q := ofN_nonneg k). set (z := ofN n) in *. set (a := ofN k) in *. clearbody z a.
  replace ((1 + 1) * z) with (z + z) by ring. assert (K : 0 < a + (z + z)) by qclra. assert (KI := Qcinv_pos _ K).
  split.
  - unfold Qcdiv. apply Qcmult_nonneg; [qclra|apply Qclt_le_weak; auto].
  - assert (E : 1 - (z + z) / (a + (z + z)) = a * / (a + (z + z))). { field. intro Z. rewrite Z in K. discriminate. }
    assert (R : 0 <= a * / (a + (z + z))) by (apply Qcmult_nonneg; auto; apply Qclt_le_weak; auto). rewrite <- E in R.
    set (v := (z + z) / (a + (z + z))) in *. clearbody v. qclra.
Qed.
Lemma rho_range k : 0 <= (1 + 1) / (ofN k + (1 + 1)) /\ (1 + 1) / (ofN k + (1 + 1)) <= 1.
Proof.
  assert (Q := ofN_nonneg k). set (a := ofN k) in *. clearbody a. assert (K : 0 < a + (1 + 1)) by qclra.
  assert (KP : 0 <= 1 + 1) by discriminate. set (two := 1 + 1) in *. clearbody two. assert (KI := Qcinv_pos _ K). split.
  - unfold Qcdiv. apply Qcmult_nonneg; [exact KP|apply Qclt_le_weak; auto].
  - assert (E : 1 - two / (a + two) = a * / (a + two)). { field. intro Z. rewrite Z in K. discriminate. }
    assert (R : 0 <= a * / (a + two)) by (apply Qcmult_nonneg; auto; apply Qclt_le_weak; auto). rewrite <- E in R.
    set (v := two / (a + two)) in *. clearbody v. qclra.
Qed.

(** C29: one block update *)
Lemma step_monotone {X Y} (prm : fw_params) (m : smodel X Y) Xs Ys i st st' : fw_line prm = true -> fw_step prm m Xs Ys i st = Ok st' ->
  dual_objective (fw_C prm) (length Xs) (fs_w st) (fs_l st) <= dual_objective (fw_C prm) (length Xs) (fs_w st') (fs_l st').
Proof.
  intros HL H. apply step_split in H. destruct H as [x [y [yh [delta [s [loss [wi [li [_ [_ [_ [_ [_ [L1 [L2 ->]]]]]]]]]]]]]]]. cbn [fs_w fs_l].
  rewrite dual_move by (rewrite ?vscale_length; auto). unfold step_gamma. rewrite HL.
  match goal with |- _ <= _ + (clip01 (?A / (?B + _)) * _ - _) => destruct (line_search A B (normsq_nonneg _)) as [P _] end.
  cbv zeta in P. match type of P with 0 <= ?q => set (z := q) in * end. match goal with |- ?q <= _ => set (u := q) in * end. clearbody z u. qclra.
Qed.
(** ... and no other step size does better (up to the eps of the denominator) *)
Lemma step_best {X Y} (prm : fw_params) (m : smodel X Y) Xs Ys i st st' : fw_line prm = true -> fw_step prm m Xs Ys i st = Ok st' ->
  exists x y yh delta s loss wi li, nth_error Xs i = Some x /\ nth_error Ys i = Some y /\
    find_constraint m x y (fs_w st) None true = Ok (yh, delta, s, loss) /\
    nth_error (fs_wmat st) i = Some wi /\ nth_error (fs_lmat st) i = Some li /\
    forall g, 0 <= g -> g <= 1 ->
      dual_objective (fw_C prm) (length Xs) (vadd (vsub (fs_w st) wi) (vmix g wi (vscale (fw_C prm) delta)))
        (fs_l st - li + mix g li (loss / ofN (length Xs))) <=
      dual_objective (fw_C prm) (length Xs) (fs_w st') (fs_l st') + fw_eps / (1 + 1).
Proof.
  intros HL H. apply step_split in H. destruct H as [x [y [yh [delta [s [loss [wi [li [E1 [E2 [E3 [E4 [E5 [L1 [L2 ->]]]]]]]]]]]]]]].
  exists x, y, yh, delta, s, loss, wi, li. do 5 (split; [auto|]). intros g G0 G1. cbn [fs_w fs_l].
  rewrite !dual_move by (rewrite ?vscale_length; auto). unfold step_gamma. rewrite HL.
  match goal with |- _ <= _ + (clip01 (?A / (?B + _)) * _ - _) + _ => destruct (line_search A B (normsq_nonneg _)) as [_ P] end.
  cbv zeta in P. specialize (P g G0 G1). rewrite <- Qcplus_assoc.  apply Qcplus_le_compat; [apply Qcle_refl|exact P].
Qed.

(** ** the invariant *)
Section inv.
  Context {X Y : Type} (T : task X Y) (d : nat) (prm : fw_params) (Xs : list X) (Ys : list Y).
  Notation SS := (combine Xs Ys). Notation C := (fw_C prm).
  Hypothesis G : good T d Xs Ys.
  Hypothesis HN : (0 < length Xs)%nat.
  Definition fw_inv (st : fw_state) : Prop :=
    length (fs_wmat st) = length Xs /\ length (fs_lmat st) = length Xs /\
    Forall2 (block_point T d C (length SS)) SS (combine (fs_wmat st) (fs_lmat st)) /\
    fs_w st = vsum d (fs_wmat st) /\ fs_l st = lsum (fs_lmat st) /\
    dual_feasible T d C SS (fs_self_w st) (fs_self_l st).
  Lemma SS_length : length SS = length Xs.
  Proof. destruct G as [L _]. rewrite combine_length, L. apply Nat.min_id. Qed.
  Lemma map_fst_combine {A B} (a : list A) : forall (b : list B), length a = length b -> map fst (combine a b) = a.
  Proof. induction a; intros [|? b] H; cbn in *; try discriminate; auto. f_equal. auto. Qed.
  Lemma map_snd_combine {A B} (a : list A) : forall (b : list B), length a = length b -> map snd (combine a b) = b.
  Proof. induction a; intros [|? b] H; cbn in *; try discriminate; auto. f_equal. auto. Qed.
  Lemma inv_feasible st : fw_inv st -> dual_feasible T d C SS (fs_w st) (fs_l st).
  Proof.
    intros [I1 [I2 [I3 [I4 [I5 _]]]]]. exists (combine (fs_wmat st) (fs_lmat st)). split; auto.
    rewrite map_fst_combine, map_snd_combine by congruence. auto.
  Qed.
  Lemma inv_lengths st : fw_inv st -> Forall (fun f => length f = d) (fs_wmat st).
  Proof.
    intros [I1 [I2 [I3 _]]]. assert (Q := feasible_blocks T d C _ SS _ (good_sized _ _ _ _ G) I3). rewrite map_fst_combine in Q by congruence. auto.
  Qed.
  Lemma inv_w_length st : fw_inv st -> length (fs_w st) = d.
  Proof. intro H. assert (L := inv_lengths st H). destruct H as [_ [_ [_ [-> _]]]]. apply vsum_length'. auto. Qed.
  Lemma self_w_length st : fw_inv st -> length (fs_self_w st) = d.
  Proof. intros [_ [_ [_ [_ [_ H]]]]]. eapply feasible_length; [|exact H]. apply good_sized; auto. Qed.
  Lemma vsum_set_at i v wm wi : Forall (fun f => length f = d) wm -> length v = d -> nth_error wm i = Some wi ->
    vsum d (set_at i v wm) = vadd (vsub (vsum d wm) wi) v.
  Proof.
    intros HF Hv Hi. assert (Li : length wi = d). { rewrite Forall_forall in HF. apply HF. eapply nth_error_In; eauto. }
    assert (LS := vsum_length' d wm HF). assert (HF' := set_at_Forall (fun f => length f = d) i v wm Hv HF). apply vec_ext.
    - rewrite vsum_length' by auto. rewrite vadd_length; rewrite vsub_length; congruence.
    - intros j _. rewrite get1_vsum' by auto. rewrite get1_vadd by (rewrite vsub_length; congruence). rewrite get1_vsub by congruence.
      rewrite get1_vsum' by auto. rewrite set_at_map. rewrite (lsum_set_at i _ _ (get1 wi j)); [ring|]. rewrite nth_error_map, Hi. reflexivity.
  Qed.
  Lemma step_inv_ok m i st st' : oracle_ok m T d SS -> fw_inv st -> fw_step prm m Xs Ys i st = Ok st' -> fw_inv st'.
  Proof.
    intros HO HI H. assert (LW := inv_w_length st HI). assert (LM := inv_lengths st HI). assert (LSW := self_w_length st HI).
    apply step_split in H. destruct H as [x [y [yh [delta [s [loss [wi [li [E1 [E2 [E3 [E4 [E5 [L1 [L2 ES]]]]]]]]]]]]]]].
    cbv zeta in ES. set (g := step_gamma _ _ _ _ _ _ _ _) in ES. destruct (gamma_range prm (length Xs) (fs_k st) (fs_w st) wi (vscale C delta) li (loss / ofN (length Xs)) HN) as [G0 G1]. fold g in G0, G1. clearbody g.
    assert (Hp : In (x, y) SS) by (eapply nth_error_In; apply nth_error_combine; eauto).
    destruct (HO (x, y) Hp) as [IM LA]. cbn [fst snd] in *. destruct (LA (fs_w st) LW) as [yl [EL HL]].
    rewrite (find_constraint_value m T d x y (fs_w st) None yl IM LW HL EL) in E3. injection E3 as <- <- <- <-.
    assert (HS : Forall (sized T d) SS) by (apply good_sized; auto).
    assert (Hs : sized T d (x, y)) by (rewrite Forall_forall in HS; auto).
    assert (BW : block_point T d C (length SS) (x, y) (vscale C (vsub (t_feat T x y) (t_feat T x yl)), t_loss T y yl / ofN (length Xs))).
    { rewrite <- SS_length. apply (block_pure T d C (length SS) (x, y) yl Hs HL). }
    destruct HI as [I1 [I2 [I3 [I4 [I5 I6]]]]].
    assert (BI : block_point T d C (length SS) (x, y) (wi, li)).
    { assert (N1 := nth_error_combine _ _ _ _ _ E4 E5). assert (N2 := nth_error_combine _ _ _ _ _ E1 E2). clear - I3 N1 N2. revert I3. generalize (length SS). intros nn I3.
      revert i N1 N2. induction I3; intros [|i] N1 N2; cbn in *; try discriminate; [congruence|eauto]. }
    assert (BM := block_mix T d C (length SS) g (x, y) _ _ Hs G0 G1 BI BW). cbn [fst snd] in BM.
    assert (LN : length (vmix g wi (vscale C (vsub (t_feat T x y) (t_feat T x yl)))) = d).
    { apply (block_length T d C _ (x, y) _ Hs BM). }
    assert (Q : forall sw sl, (dual_feasible T d C SS (vadd (vsub (fs_w st) wi) (vmix g wi (vscale C (vsub (t_feat T x y) (t_feat T x yl))))) (fs_l st - li + mix g li (t_loss T y yl / ofN (length Xs))) ->
              dual_feasible T d C SS sw sl) -> fw_inv (FWState (vadd (vsub (fs_w st) wi) (vmix g wi (vscale C (vsub (t_feat T x y) (t_feat T x yl)))))
              (set_at i (vmix g wi (vscale C (vsub (t_feat T x y) (t_feat T x yl)))) (fs_wmat st)) (set_at i (mix g li (t_loss T y yl / ofN (length Xs))) (fs_lmat st))
              (fs_l st - li + mix g li (t_loss T y yl / ofN (length Xs))) (S (fs_k st)) sw sl)).
    { intros sw sl HQ.
      assert (FB : Forall2 (block_point T d C (length SS)) SS (combine (set_at i (vmix g wi (vscale C (vsub (t_feat T x y) (t_feat T x yl)))) (fs_wmat st)) (set_at i (mix g li (t_loss T y yl / ofN (length Xs))) (fs_lmat st)))).
      { rewrite <- combine_set_at. apply set_at_Forall2 with (a := (x, y)); auto. apply nth_error_combine; auto. }
      assert (EW : vadd (vsub (fs_w st) wi) (vmix g wi (vscale C (vsub (t_feat T x y) (t_feat T x yl)))) = vsum d (set_at i (vmix g wi (vscale C (vsub (t_feat T x y) (t_feat T x yl)))) (fs_wmat st))).
      { rewrite I4. symmetry. apply vsum_set_at; auto. }
      assert (EL' : fs_l st - li + mix g li (t_loss T y yl / ofN (length Xs)) = lsum (set_at i (mix g li (t_loss T y yl / ofN (length Xs))) (fs_lmat st))).
      { rewrite I5. symmetry. apply lsum_set_at; auto. }
      unfold fw_inv. cbn [fs_w fs_wmat fs_lmat fs_l fs_k fs_self_w fs_self_l]. rewrite !set_at_length. do 5 (split; [auto|]). apply HQ.
      eexists. split; [exact FB|]. rewrite map_fst_combine, map_snd_combine by (rewrite !set_at_length; congruence). auto. }
    rewrite ES. apply Q. intro DF. destruct (fw_avg prm); [|exact DF].
    destruct (rho_range (fs_k st)). apply feasible_mix; auto.
  Qed.
  Lemma step_total m i st : oracle_ok m T d SS -> fw_inv st -> (i < length Xs)%nat -> exists st', fw_step prm m Xs Ys i st = Ok st'.
  Proof.
    intros HO HI Hi. assert (LW := inv_w_length st HI). assert (LM := inv_lengths st HI). assert (LSW := self_w_length st HI).
    assert (Lxy : length Xs = length Ys) by apply G. destruct HI as [I1 [I2 _]].
    destruct (nth_error Xs i) as [x|] eqn:E1; [|apply nth_error_None in E1; lia].
    destruct (nth_error Ys i) as [y|] eqn:E2; [|apply nth_error_None in E2; lia].
    destruct (nth_error (fs_wmat st) i) as [wi|] eqn:E3; [|apply nth_error_None in E3; lia].
    destruct (nth_error (fs_lmat st) i) as [li|] eqn:E4; [|apply nth_error_None in E4; lia].
    assert (Hp : In (x, y) SS) by (eapply nth_error_In; apply nth_error_combine; eauto).
    destruct (HO (x, y) Hp) as [IM LA]. cbn [fst snd] in *. destruct (LA (fs_w st) LW) as [yl [EL HL]].
    assert (LI : length wi = d) by (rewrite Forall_forall in LM; apply LM; eapply nth_error_In; eauto).
    assert (LD : length (vsub (t_feat T x y) (t_feat T x yl)) = d).
    { destruct IM as [M1 [_ M3]]. destruct (M3 y M1), (M3 yl HL). rewrite vsub_length; congruence. }
    unfold fw_step, index. rewrite E1, E2, E3, E4. cbn [bind]. rewrite (find_constraint_value m T d x y (fs_w st) None yl IM LW HL EL). cbn [bind].
    unfold np_vsub, np_vadd. rewrite LW, LI, vscale_length, LD, !Nat.eqb_refl. cbn [bind ensure].
    rewrite np_dot_ok by (rewrite vsub_length; rewrite ?vscale_length; congruence).
    destruct (fw_line prm); cbn [bind]; rewrite vsub_length, vmix_length by (rewrite ?vscale_length; congruence); rewrite LW, LI, Nat.eqb_refl; cbn [bind]; eauto.
  Qed.
  Lemma pass_inv m idx : oracle_ok m T d SS -> forall st st', fw_inv st -> fw_pass prm m Xs Ys idx st = Ok st' -> fw_inv st'.
  Proof.
    intro HO. induction idx as [|i r IH]; cbn [fw_pass]; intros st st' HI H; [congruence|].
    apply bind_ok in H. destruct H as [st1 [E H]]. eapply IH; [|exact H]. eapply step_inv_ok; eauto.
  Qed.
  Lemma pass_total m idx : oracle_ok m T d SS -> Forall (fun i => (i < length Xs)%nat) idx -> forall st, fw_inv st -> exists st', fw_pass prm m Xs Ys idx st = Ok st'.
  Proof.
    intros HO HF. induction HF as [|i r Hi HF IH]; cbn [fw_pass]; intros st HI; [eauto|].
    destruct (step_total m i st HO HI Hi) as [st1 E]. rewrite E. cbn [bind]. apply IH. eapply step_inv_ok; eauto.
  Qed.
  Lemma start_inv : fw_inv (fw_bc_start d (length Xs) (vzero d) 0).
  Proof.
    assert (HS : Forall (sized T d) SS) by (apply good_sized; auto).
    assert (FB : Forall2 (block_point T d C (length SS)) SS (combine (repeat (vzero d) (length Xs)) (vzero (length Xs)))).
    { rewrite <- SS_length. generalize (length SS) at 1. intro k. induction HS as [|p S Hp HS IH]; cbn [length repeat vzero combine]; constructor; auto. apply block_zero; auto. }
    assert (EW : vzero d = vsum d (repeat (vzero d) (length Xs))).
    { generalize (length Xs). induction n as [|n IH]; cbn [repeat]; [reflexivity|]. change (vzero d = vadd (vzero d) (vsum d (repeat (vzero d) n))). rewrite <- IH.
      symmetry. apply vadd_vzero_l. apply vzero_length. }
    assert (EL : 0 = lsum (vzero (length Xs))). { unfold vzero. rewrite lsum_repeat. ring. }
    unfold fw_inv, fw_bc_start. cbn [fs_w fs_wmat fs_lmat fs_l fs_k fs_self_w fs_self_l]. rewrite repeat_length, vzero_length. do 5 (split; [auto|]).
    eexists. split; [exact FB|]. rewrite map_fst_combine, map_snd_combine by (rewrite repeat_length, vzero_length; auto). auto.
  Qed.
End inv.

From Verif Require Import Proofs.Arrays Proofs.LossProofs Proofs.CRFProofs Proofs.LearnerProofs
  Proofs.UnstructuredProofs2 Proofs.QPProofs Proofs.NSlackProofs5 Proofs.OneSlackProofs Proofs.OneSlackProofs2 Model.FrankWolfe Spec.FrankWolfeSpec Proofs.FrankWolfeProofs Proofs.FrankWolfeProofs2.
Notation mix := FrankWolfe.mix.

Lemma ascending_snoc c v : ascending c -> Forall (fun u => u <= v) c -> ascending (c ++ [v]).
Proof.
  intros HA HF i j Hij Hj. rewrite app_length in Hj. cbn [length] in Hj.
  assert (E : forall i, (i < length c)%nat -> get1 (c ++ [v]) i = get1 c i) by (intros; apply app_nth1; auto).
  assert (E' : get1 (c ++ [v]) (length c) = v) by (unfold get1; rewrite app_nth2 by lia; rewrite Nat.sub_diag; reflexivity).
  destruct (Nat.eq_dec j (length c)) as [->|N].
  - destruct (Nat.eq_dec i (length c)) as [->|N']; [apply Qcle_refl|]. rewrite E', E by lia. rewrite Forall_forall in HF. apply HF. apply nth_In. lia.
  - rewrite !E by lia. apply HA; lia.
Qed.
Lemma ascending_nil : ascending [].
Proof. intros i j _ H. cbn in H. lia. Qed.

Section gap.
  Context {X Y : Type} (T : task X Y) (d : nat) (C : Qc) (Xs : list X) (Ys : list Y).
  Notation SS := (combine Xs Ys).
  Lemma usable_joint bm : fw_usable T d Xs Ys bm -> bm_joint bm Xs Ys (Some Ys) = Ok (feat_sum T d Xs Ys) /\
    forall Yh, labelling T Xs Yh -> bm_joint bm Xs Yh None = Ok (feat_sum T d Xs Yh).
  Proof.
    intros [HB [HR HE]]. assert (G := batch_good _ _ _ _ _ HB). destruct HB as [_ [_ [_ [HB _]]]]. rewrite HR in HB. split.
    - rewrite HE. apply HB. apply (good_label T d). auto.
    - intros Yh HY. apply HB. auto.
  Qed.
  Lemma calc_value bm w l Yh : fw_usable T d Xs Ys bm -> length w = d -> bm_laug bm Xs Ys w = Ok Yh -> labelling T Xs Yh ->
    let D := dual_objective C (length Xs) w l in let P := primal_value C w (margins T w Xs Ys Yh) in
    calc_dual_gap C bm Xs Ys w l = Ok (D, P - D, P).
  Proof.
    intros HU Hw HY LY D P. assert (G := batch_good _ _ _ _ _ (proj1 HU)). destruct (usable_joint bm HU) as [J1 J2].
    destruct HU as [[_ [_ [_ [HB _]]]] _]. destruct (HB Yh LY) as [_ B2].
    assert (L1 := feat_sum_length T d Xs Ys Ys G (good_label _ _ _ _ G)). assert (L2 := feat_sum_length T d Xs Ys Yh G LY).
    unfold calc_dual_gap. rewrite J1. cbn [bind]. rewrite HY. cbn [bind]. rewrite (J2 Yh LY). cbn [bind]. unfold np_vsub. rewrite L1, L2, Nat.eqb_refl. cbn [bind].
    rewrite B2. cbn [bind]. rewrite vscale_length, vsub_length by congruence. rewrite Hw, L1, Nat.eqb_refl. cbn [bind].
    assert (L3 : length (vsub (feat_sum T d Xs Ys) (feat_sum T d Xs Yh)) = d) by (rewrite vsub_length; congruence).
    rewrite np_dot_ok by (rewrite vsub_length; rewrite ?vscale_length; congruence). cbn [bind].
    fold (loss_sum T Ys Yh). assert (SM := sum_margins T d w Xs Hw Ys Yh G LY).
    rewrite (dot_comm _ w), dot_vsub_r, dot_vscale_r, dot_vsub_r by (rewrite ?vscale_length; congruence).
    assert (ED : - (normsq w / (1 + 1)) + l * ofN (length Xs) * C = D). { unfold D, dual_objective. ring. }
    assert (EP : - (normsq w / (1 + 1)) + l * ofN (length Xs) * C + (dot w w - C * (dot w (feat_sum T d Xs Ys) - dot w (feat_sum T d Xs Yh)) - l * ofN (length Xs) * C + loss_sum T Ys Yh * C) = P).
    { unfold P, primal_value. rewrite <- SM. unfold normsq. set (a := dot w w). set (b := dot w _). set (c := dot w (feat_sum T d Xs Yh)). set (z := ofN _). set (q := loss_sum T Ys Yh).
      clearbody a b c z q. field. discriminate. }
    rewrite EP, ED. f_equal. f_equal. f_equal. rewrite <- EP, <- ED. ring.
  Qed.
  Lemma calc_exact bm w l : fw_usable T d Xs Ys bm -> batch_exact bm T d Xs Ys -> length w = d ->
    exists hs, hinges T w SS hs /\
      calc_dual_gap C bm Xs Ys w l = Ok (dual_objective C (length Xs) w l, primal_value C w hs - dual_objective C (length Xs) w l, primal_value C w hs).
  Proof.
    intros HU HE Hw. assert (G := batch_good _ _ _ _ _ (proj1 HU)). destruct (exact_hinges T d Xs Ys bm w G HE Hw) as [Yh [EY [LY HH]]].
    exists (margins T w Xs Ys Yh). split; auto. apply calc_value; auto.
  Qed.
  Lemma calc_total bm w l : fw_usable T d Xs Ys bm -> length w = d -> exists P, calc_dual_gap C bm Xs Ys w l = Ok (dual_objective C (length Xs) w l, P - dual_objective C (length Xs) w l, P).
  Proof.
    intros HU Hw. assert (HU' := HU). destruct HU' as [[_ [_ [_ [_ HB]]]] _]. destruct (HB w Hw) as [Yh [EY LY]]. eexists. apply (calc_value bm w l Yh); auto.
  Qed.
  Lemma fw_gap_report bm w l : (0 < length Xs)%nat -> fw_usable T d Xs Ys bm -> batch_exact bm T d Xs Ys -> length w = d ->
    exists hs, hinges T w SS hs /\
      objective_primal (bm_s bm) w Xs Ys C NSlack = Ok (primal_value C w hs) /\
      calc_dual_gap C bm Xs Ys w l = Ok (dual_objective C (length Xs) w l, primal_value C w hs - dual_objective C (length Xs) w l, primal_value C w hs) /\
      (0 <= C -> dual_feasible T d C SS w l -> 0 <= primal_value C w hs - dual_objective C (length Xs) w l).
  Proof.
    intros HN HU HE Hw. destruct (calc_exact bm w l HU HE Hw) as [hs [HH EC]]. exists hs. split; auto.
    assert (G := batch_good _ _ _ _ _ (proj1 HU)). assert (LL : length Xs = length Ys) by apply G.
    assert (LS : length SS = length Xs) by (rewrite combine_length, <- LL; apply Nat.min_id). split; [|split; [exact EC|]].
    - destruct (objective_value (bm_s bm) T d w Xs Ys C NSlack LL) as [hs' [H1 H2]]; auto.
      + intro E. rewrite E in HN. cbn in HN. lia.
      + intros p Hp. destruct HE as [_ [HE _]]. destruct (HE p Hp) as [A B]. split; auto.
      + rewrite (hinges_unique T Xs Ys w hs hs' HH H1). exact H2.
    - intros HC HF. assert (Q := fw_weak T d C SS w l w hs ltac:(lia) HC (good_sized _ _ _ _ G) HF Hw HH). rewrite LS in Q.
      set (a := dual_objective _ _ _ _) in *. set (b := primal_value _ _ _) in *. clearbody a b. qclra.
  Qed.
End gap.

Section loop.
  Context {X Y : Type} (T : task X Y) (d : nat) (prm : fw_params) (Xs : list X) (Ys : list Y) (bm : bmodel X Y).
  Notation SS := (combine Xs Ys). Notation C := (fw_C prm).
  Hypothesis HN : (0 < length Xs)%nat.
  Hypothesis HC : 0 <= C.
  Hypothesis HU : fw_usable T d Xs Ys bm.
  Definition bound (o : Qc) : Prop := forall w' hs, length w' = d -> hinges T w' SS hs -> o <= primal_value C w' hs.
  Lemma HG : good T d Xs Ys. Proof. eapply batch_good. apply HU. Qed.
  Lemma LSS : length SS = length Xs. Proof. apply (SS_length T d). apply HG. Qed.
  Lemma feasible_bound w l : dual_feasible T d C SS w l -> bound (dual_objective C (length Xs) w l).
  Proof.
    intros HF w' hs Hw HH. rewrite <- LSS. apply (fw_weak T d); auto. { rewrite LSS. auto. } apply good_sized, HG.
  Qed.
  Notation inv := (fw_inv T d prm Xs Ys).
  Notation D w l := (dual_objective C (length Xs) w l).
  (** what is known about the local variable dual_gap *)
  Definition gap_ok (gap : option Qc) (primal curve : list Qc) : Prop :=
    length primal = length curve /\
    match gap with None => curve = [] | Some g => curve <> [] /\ g = last primal 0 - last curve 0 end.
  Definition plain (st : fw_state) : Prop := fw_avg prm = false -> fs_self_w st = fs_w st /\ fs_self_l st = fs_l st.
  Definition rising (st : fw_state) (curve : list Qc) : Prop :=
    fw_avg prm = false -> fw_line prm = true -> ascending curve /\ Forall (fun v => v <= D (fs_w st) (fs_l st)) curve.
  Lemma pass_plain m idx : forall st st', plain st -> fw_pass prm m Xs Ys idx st = Ok st' -> plain st'.
  Proof.
    induction idx as [|i r IH]; cbn [fw_pass]; intros st st' HP H; [injection H as <-; exact HP|]. apply bind_ok in H. destruct H as [st1 [E H]].
    eapply IH; [|exact H]. intro NA. apply step_split in E. destruct E as [x [y [yh [delta [s [loss [wi [li [_ [_ [_ [_ [_ [_ [_ ->]]]]]]]]]]]]]]].
    cbn [fs_w fs_l fs_self_w fs_self_l]. rewrite NA. auto.
  Qed.
  Lemma pass_rises m idx : fw_line prm = true -> forall st st', fw_pass prm m Xs Ys idx st = Ok st' -> D (fs_w st) (fs_l st) <= D (fs_w st') (fs_l st').
  Proof.
    intro HL. induction idx as [|i r IH]; cbn [fw_pass]; intros st st' H. { injection H as <-. apply Qcle_refl. }
    apply bind_ok in H. destruct H as [st1 [E H]]. eapply Qcle_trans; [eapply step_monotone; eauto|]. eauto.
  Qed.
  Lemma bc_loop_inv sched k : forall it st gap primal curve st' primal' curve',
    inv st -> plain st -> rising st curve -> Forall bound curve -> gap_ok gap primal curve -> (forall g, gap = Some g -> Qcltb g (fw_tol prm) = false) ->
    fw_bc_loop prm bm Xs Ys sched k it st gap primal curve = Ok (st', primal', curve') ->
    inv st' /\ plain st' /\ rising st' curve' /\ Forall bound curve' /\ length primal' = length curve' /\
    (curve' <> [] -> last primal' 0 - last curve' 0 < fw_tol prm ->
     calc_dual_gap C bm Xs Ys (fs_self_w st') (fs_self_l st') = Ok (last curve' 0, last primal' 0 - last curve' 0, last primal' 0)).
  Proof.
    induction k as [|k IH]; intros it st gap primal curve st' primal' curve' HI HP HR HB HG' HT H; cbn [fw_bc_loop] in H.
    - injection H as <- <- <-. do 4 (split; [auto|]). split; [apply HG'|]. intros NE LT. exfalso. destruct HG' as [_ HG']. destruct gap as [g|]; [|auto].
      destruct HG' as [_ ->]. specialize (HT _ eq_refl). unfold Qcltb in HT. apply Bool.negb_false_iff, Qcleb_le in HT. revert HT. apply Qclt_not_le. exact LT.
    - apply bind_ok in H. destruct H as [st1 [EP H]]. apply bind_ok in H. destruct H as [[[gap1 p1] c1] [EC H]].
      assert (I1 := pass_inv T d prm Xs Ys HG HN (bm_s bm) (sched it) (proj1 (proj2 (proj2 (proj1 HU)))) st st1 HI EP).
      assert (P1 := pass_plain _ _ _ _ HP EP).
      assert (R1 : rising st1 curve). { intros A L. destruct (HR A L) as [R1 R2]. split; auto. eapply Forall_impl; [|exact R2]. intros v Hv. cbv beta in *.
        eapply Qcle_trans; [exact Hv|]. eapply pass_rises; eauto. }
      assert (Q : inv st1 /\ plain st1 /\ rising st1 c1 /\ Forall bound c1 /\ gap_ok gap1 p1 c1 /\
                (forall g, gap1 = Some g -> (Qcltb g (fw_tol prm) = false) \/ calc_dual_gap C bm Xs Ys (fs_self_w st1) (fs_self_l st1) = Ok (last c1 0, last p1 0 - last c1 0, last p1 0))).
      { match type of EC with (if ?b then _ else _) = _ => destruct b end.
        - assert (LW := self_w_length T d prm Xs Ys HG st1 I1). destruct (calc_total T d C Xs Ys bm (fs_self_w st1) (fs_self_l st1) HU LW) as [P EV]. rewrite EV in EC. cbn [bind fst snd] in EC.
          injection EC as <- <- <-. split; [auto|]. split; [auto|]. split; [|split; [|split]].
          + intros A L. destruct (R1 A L) as [R2 R3]. destruct (P1 A) as [-> ->]. split; [apply ascending_snoc; auto|]. apply Forall_app. split; auto. constructor; [apply Qcle_refl|constructor].
          + apply Forall_app. split; auto. constructor; [|constructor]. apply feasible_bound. apply I1.
          + destruct HG' as [HL _]. split; [rewrite !app_length; cbn; congruence|]. split; [intro E; apply app_eq_nil in E; destruct E; discriminate|]. rewrite !last_last. reflexivity.
          + intros g _. right. rewrite EV, !last_last. reflexivity.
        - injection EC as <- <- <-. do 5 (split; [auto|]). intros g Eg. left. auto. }
      destruct Q as [_ [_ [R2 [B2 [G2 T2]]]]]. destruct gap1 as [g|]; [|discriminate H]. destruct (Qcltb g (fw_tol prm)) eqn:ET.
      + injection H as <- <- <-. do 4 (split; [auto|]). split; [apply G2|]. intros _ _. destruct (T2 g eq_refl) as [F|F]; [congruence|exact F].
      + apply (IH _ _ _ _ _ _ _ _ I1 P1 R2 B2 G2) in H; auto. intros g' Eg. congruence.
  Qed.
  Lemma start_plain w l : l = 0 -> plain (fw_bc_start d (length Xs) w l).
  Proof. intros -> _. split; reflexivity. Qed.
  Lemma bc_inv sched st' primal' curve' : frank_wolfe_bc prm bm Xs Ys sched (vzero d) 0 = Ok (st', primal', curve') ->
    inv st' /\ plain st' /\ rising st' curve' /\ Forall bound curve' /\ length primal' = length curve' /\
    (curve' <> [] -> last primal' 0 - last curve' 0 < fw_tol prm ->
     calc_dual_gap C bm Xs Ys (fs_self_w st') (fs_self_l st') = Ok (last curve' 0, last primal' 0 - last curve' 0, last primal' 0)).
  Proof.
    intro H. unfold frank_wolfe_bc in H. rewrite (proj1 (proj1 HU)) in H.
    eapply bc_loop_inv; [| | | | | |exact H].
    - apply start_inv. apply HG.
    - apply start_plain. auto.
    - intros _ _. split; [apply ascending_nil|constructor].
    - constructor.
    - split; auto.
    - intros g E. discriminate.
  Qed.
  Lemma last_of_ok l v : last_of l = Ok v -> l <> [] /\ v = last l 0.
  Proof.
    unfold last_of. intro H. destruct l as [|x l] using rev_ind; [discriminate H|]. rewrite rev_app_distr in H. cbn in H. injection H as <-. rewrite last_last.
    split; auto. intro E. apply app_eq_nil in E. destruct E. discriminate.
  Qed.
  (** ** batch mode *)
  Lemma vertex_feasible Yh : labelling T Xs Yh ->
    dual_feasible T d C SS (vscale C (vsub (feat_sum T d Xs Ys) (feat_sum T d Xs Yh))) (loss_sum T Ys Yh / ofN (length Xs)).
  Proof.
    intro LY. assert (G := HG). rewrite <- LSS. exists (map (fun q => (vscale C (vsub (t_feat T (fst (fst q)) (snd (fst q))) (t_feat T (fst (fst q)) (snd q))), t_loss T (snd (fst q)) (snd q) / ofN (length SS))) (combine SS Yh)).
    assert (HS := good_sized _ _ _ _ G). generalize (length SS). intro n.
    assert (L := proj1 G). clear HU HN. unfold labelling in LY. revert Ys L HS Yh LY G. induction Xs as [|x xs IH]; intros [|y ys] L HS Yh LY G; try discriminate L; inversion LY; subst.
    - cbn [combine map]. split; [constructor|]. unfold feat_sum, loss_sum. cbn [combine map fold_right lsum vsum]. split; [|unfold Qcdiv; cbn; ring].
      apply vec_ext. { rewrite vscale_length, vsub_length by reflexivity. reflexivity. } intros i _. rewrite get1_vscale, get1_vsub by reflexivity. unfold vsum. cbn [fold_right]. rewrite get1_vzero. ring.
    - assert (G' := good_cons _ _ _ _ _ _ G). cbn [combine] in *. apply Forall_cons_iff in HS. destruct HS as [H0 HS].
      cbn in L. injection L as L. match goal with A : Forall2 _ xs ?l, B : t_label T x ?b |- _ => destruct (IH ys L HS l A G') as [I1 [I2 I3]]; rename B into LB; assert (LY' : labelling T xs l) by exact A end.
      assert (GL := good_label _ _ _ _ G'). cbn [map fst snd]. split; [constructor; auto; apply (block_pure T d C n (x, y)); auto|]. split.
      + change (vsum d (?a :: ?b)) with (vadd a (vsum d b)). rewrite <- I2. unfold feat_sum. cbn [combine map fold_right fst snd].
        fold (feat_sum T d xs ys). match goal with |- context [fold_right vadd (vzero d) (map ?f (combine xs ?l))] => fold (feat_sum T d xs l) end.
        assert (F1 := feat_sum_length T d xs ys ys G' GL). assert (F2 := feat_sum_length T d xs ys _ G' LY').
        assert (F3 : length (t_feat T x y) = d) by (apply H0; apply H0). match type of LB with t_label _ _ ?b => assert (F4 : length (t_feat T x b) = d) by (apply H0; auto) end.
        apply vec_ext.
        * rewrite vscale_length, vsub_length, vadd_length by (rewrite ?vadd_length; congruence). rewrite vadd_length; rewrite !vscale_length, !vsub_length; congruence.
        * intros i _. rewrite get1_vadd by (rewrite !vscale_length, !vsub_length; congruence). rewrite !get1_vscale, !get1_vsub by (rewrite ?vadd_length; congruence).
          rewrite !get1_vadd by congruence. ring.
      + cbn [lsum]. rewrite <- I3. unfold loss_sum. cbn [combine map lsum fst snd]. unfold Qcdiv. ring.
  Qed.
  Definition binv (st : fw_bstate) : Prop :=
    dual_feasible T d C SS (fb_w st) (fb_l st) /\ Forall bound (fb_curve st) /\
    (fw_line prm = true -> ascending (fb_curve st) /\ Forall (fun v => v <= D (fb_w st) (fb_l st)) (fb_curve st)).
  Lemma fw_dual_eq w l : fw_dual C (length Xs) w l = D w l.
  Proof. unfold fw_dual, dual_objective. ring. Qed.
  (** one batch iteration *)
  Lemma batch_step it st : fw_C prm <> 0 -> length (fb_w st) = d -> exists Yh g gap,
    bm_laug bm Xs Ys (fb_w st) = Ok Yh /\ labelling T Xs Yh /\ 0 <= g /\ g <= 1 /\
    let ws := vscale C (vsub (feat_sum T d Xs Ys) (feat_sum T d Xs Yh)) in let ls := loss_sum T Ys Yh / ofN (length Xs) in
    let P := primal_value C (fb_w st) (margins T (fb_w st) Xs Ys Yh) in
    C * ofN (length Xs) * gap = P - D (fb_w st) (fb_l st) /\
    fw_batch_step prm bm Xs Ys (feat_sum T d Xs Ys) it st =
      Ok (FWBState (vmix g (fb_w st) ws) (mix g (fb_l st) ls) (fb_primal st ++ [P]) (fb_curve st ++ [D (fb_w st) (fb_l st)]), gap) /\
    (fw_line prm = true -> D (fb_w st) (fb_l st) <= D (vmix g (fb_w st) ws) (mix g (fb_l st) ls) /\
       forall h, 0 <= h -> h <= 1 -> D (vmix h (fb_w st) ws) (mix h (fb_l st) ls) <= D (vmix g (fb_w st) ws) (mix g (fb_l st) ls) + C * ofN (length Xs) * (fw_eps / (1 + 1))).
  Proof.
    intros HCZ Hw. assert (G := HG). destruct (proj2 (proj2 (proj2 (proj2 (proj1 HU)))) _ Hw) as [Yh [EY LY]].
    destruct (usable_joint T d Xs Ys bm HU) as [J1 J2].
    destruct (proj1 (proj2 (proj2 (proj2 (proj1 HU)))) Yh LY) as [_ B2].
    assert (L1 := feat_sum_length T d Xs Ys Ys G (good_label _ _ _ _ G)). assert (L2 := feat_sum_length T d Xs Ys Yh G LY).
    assert (LYY : length (combine Ys Yh) = length Xs). { rewrite combine_length. rewrite <- (proj1 G). assert (FL := Forall2_len _ _ _ LY). lia. }
    assert (NZ := ofN_neq0 _ HN). assert (CN : C * ofN (length Xs) <> 0). { intro E. apply Qcmult_integral in E. tauto. }
    set (ws := vscale C (vsub (feat_sum T d Xs Ys) (feat_sum T d Xs Yh))). set (ls := loss_sum T Ys Yh / ofN (length Xs)).
    assert (LWS : length ws = d). { unfold ws. rewrite vscale_length, vsub_length; congruence. }
    set (gap := 1 / (C * ofN (length Xs)) * dot (vsub (fb_w st) ws) (fb_w st) - fb_l st + ls).
    set (g := if fw_line prm then clip01 (gap / (normsq (vsub (fb_w st) ws) / (C * ofN (length Xs)) + fw_eps)) else (1 + 1) / (ofN it + (1 + 1))).
    exists Yh, g, gap. split; [auto|]. split; [auto|]. assert (GR : 0 <= g /\ g <= 1). { unfold g. destruct (fw_line prm); [apply clip01_range|apply rho_range]. }
    split; [apply GR|]. split; [apply GR|]. cbv zeta. fold ws ls.
    assert (SM := sum_margins T d (fb_w st) Xs Hw Ys Yh G LY).
    assert (EG : C * ofN (length Xs) * gap = primal_value C (fb_w st) (margins T (fb_w st) Xs Ys Yh) - D (fb_w st) (fb_l st)).
    { unfold gap, primal_value, dual_objective. rewrite <- SM. rewrite (dot_comm _ (fb_w st)), dot_vsub_r by congruence. unfold ws. rewrite dot_vscale_r, dot_vsub_r by congruence.
      unfold ls, normsq. set (z := ofN _) in *. set (a := dot (fb_w st) (fb_w st)). set (b := dot (fb_w st) (feat_sum T d Xs Ys)). set (c := dot (fb_w st) (feat_sum T d Xs Yh)). set (q := loss_sum _ _ _).
      clearbody z a b c q. field. repeat (split; [first [exact NZ|exact HCZ|discriminate]|]). first [exact NZ|exact HCZ|discriminate]. }
    split; [exact EG|]. split.
    - unfold fw_batch_step. rewrite EY. cbn [bind]. rewrite (J2 Yh LY). cbn [bind]. unfold np_vsub. rewrite L1, L2, Nat.eqb_refl. cbn [bind].
      rewrite B2. cbn [bind]. rewrite map_length, LYY. destruct (Nat.eqb_spec (length Xs) 0) as [Z|_]; [lia|]. cbn [negb ensure bind].
      fold (loss_sum T Ys Yh). fold ls. rewrite vscale_length, vsub_length by congruence. rewrite Hw, L1, Nat.eqb_refl. cbn [bind]. fold ws.
      destruct (Qceqb (C * ofN (length Xs)) 0) eqn:EZ; [exfalso; apply CN; apply Qceqb_eq; exact EZ|]. cbn [negb ensure bind].
      rewrite np_dot_ok by (rewrite vsub_length; congruence). cbn [bind]. fold gap. rewrite !fw_dual_eq. fold g. f_equal. f_equal. f_equal.
      f_equal. f_equal. transitivity (D (fb_w st) (fb_l st) + C * ofN (length Xs) * gap); [ring|]. rewrite EG. ring.
    - intro HL.
      assert (CP : 0 < C * ofN (length Xs)). { apply Qcmult_pos; [|apply ofN_pos; auto]. destruct (Qcle_lt_or_eq _ _ HC); auto. congruence. }
      assert (MV : forall h, D (vmix h (fb_w st) ws) (mix h (fb_l st) ls) = D (fb_w st) (fb_l st) + C * ofN (length Xs) * (h * gap - h * h * (normsq (vsub (fb_w st) ws) / (C * ofN (length Xs))) / (1 + 1))).
      { intro h. assert (E := dual_move C (length Xs) (fb_w st) (fb_l st) (fb_w st) ws (fb_l st) ls h eq_refl ltac:(congruence)).
        replace (fb_l st - fb_l st + mix h (fb_l st) ls) with (mix h (fb_l st) ls) in E by ring.
        replace (vadd (vsub (fb_w st) (fb_w st)) (vmix h (fb_w st) ws)) with (vmix h (fb_w st) ws) in E.
        2:{ apply vec_ext; [rewrite vadd_length; rewrite vsub_length, ?vmix_length by congruence; rewrite ?vmix_length by congruence; congruence|].
            intros i _. rewrite get1_vadd by (rewrite vsub_length, vmix_length; congruence). rewrite get1_vsub by congruence. ring. }
        rewrite E. f_equal. unfold gap. set (z := ofN _) in *. set (a := dot _ _). set (b := normsq _). clearbody z a b. field. repeat (split; [first [exact NZ|exact HCZ|discriminate]|]). first [exact NZ|exact HCZ|discriminate]. }
      assert (BN : 0 <= normsq (vsub (fb_w st) ws) / (C * ofN (length Xs))). { unfold Qcdiv. apply Qcmult_nonneg; [apply normsq_nonneg|]. apply Qclt_le_weak, Qcinv_pos, CP. }
      destruct (line_search gap _ BN) as [S1 S2]. cbv zeta in S1, S2. fold (normsq (vsub (fb_w st) ws)) in *.
      assert (Eg : g = clip01 (gap / (normsq (vsub (fb_w st) ws) / (C * ofN (length Xs)) + fw_eps))) by (unfold g; rewrite HL; reflexivity). rewrite <- Eg in S1, S2.
      split.
      + rewrite MV. assert (Q := Qcmult_nonneg _ _ (Qclt_le_weak _ _ CP) S1). set (u := D (fb_w st) (fb_l st)) in *. match type of Q with 0 <= ?x => set (v := x) in * end. clearbody u v. qclra.
      + intros h H0 H1. rewrite !MV. specialize (S2 h H0 H1). rewrite <- Qcplus_assoc, <- Qcmult_plus_distr_r. apply Qcplus_le_compat; [apply Qcle_refl|].
        rewrite !(Qcmult_comm (C * ofN (length Xs))). apply Qcmult_le_compat_r; [exact S2|apply Qclt_le_weak; auto].
  Qed.
  Lemma batch_step_inv it st : fw_C prm <> 0 -> binv st -> exists st' gap, fw_batch_step prm bm Xs Ys (feat_sum T d Xs Ys) it st = Ok (st', gap) /\ binv st' /\
    length (fb_primal st') = S (length (fb_primal st)) /\ length (fb_curve st') = S (length (fb_curve st)) /\
    (batch_exact bm T d Xs Ys -> exists hs, hinges T (fb_w st) SS hs /\ C * ofN (length Xs) * gap = primal_value C (fb_w st) hs - D (fb_w st) (fb_l st)).
  Proof.
    intros HCZ [BF [BB BR]]. assert (HS := good_sized _ _ _ _ HG). assert (Hw := feasible_length _ _ _ _ _ _ HS BF).
    destruct (batch_step it st HCZ Hw) as [Yh [g [gap [EY [LY [G0 [G1 [EG [ES SL]]]]]]]]]. cbv zeta in *.
    eexists _, gap. split; [exact ES|]. assert (VF := vertex_feasible Yh LY). split; [|split; [|split]].
    - split; [|split].
      + cbn [fb_w fb_l]. apply feasible_mix; auto.
      + cbn [fb_curve]. apply Forall_app. split; auto. constructor; [|constructor]. apply feasible_bound. exact BF.
      + intro HL. destruct (BR HL) as [R1 R2]. destruct (SL HL) as [SL1 _]. cbn [fb_curve fb_w fb_l]. split; [apply ascending_snoc; auto|]. apply Forall_app.
        split; [|constructor; [auto|constructor]]. eapply Forall_impl; [|exact R2]. intros v Hv. cbv beta in *. eapply Qcle_trans; eauto.
    - cbn [fb_primal]. rewrite app_length. cbn. lia.
    - cbn [fb_curve]. rewrite app_length. cbn. lia.
    - intro HE. destruct (exact_hinges T d Xs Ys bm (fb_w st) HG HE Hw) as [Yh' [EY' [_ HH]]]. assert (Yh' = Yh) by congruence. subst Yh'. eauto.
  Qed.
  Lemma batch_loop_inv k : fw_C prm <> 0 -> forall it st, binv st ->
    exists st', fw_batch_loop prm bm Xs Ys (feat_sum T d Xs Ys) k it st = Ok st' /\ binv st' /\ ((0 < k)%nat -> fb_curve st' <> []).
  Proof.
    intro HCZ. induction k as [|k IH]; intros it st HI; cbn [fw_batch_loop]. { exists st. split; auto. split; auto. lia. }
    destruct (batch_step_inv it st HCZ HI) as [st1 [gap [E [I1 [_ [L1 _]]]]]]. rewrite E. cbn [bind fst snd].
    assert (NE : fb_curve st1 <> []) by (intro Z; rewrite Z in L1; discriminate). destruct (Qcltb gap (fw_tol prm)); [exists st1; auto|].
    destruct (IH (S it) st1 I1) as [st2 [E2 [I2 N2]]]. exists st2. split; auto. split; auto. intros _. destruct k; [|apply N2; lia]. cbn [fw_batch_loop] in E2. congruence.
  Qed.
  Lemma zero_feasible : dual_feasible T d C SS (vzero d) 0.
  Proof. apply (inv_feasible T d prm Xs Ys (fw_bc_start d (length Xs) (vzero d) 0)). apply start_inv. apply HG. Qed.
  Lemma batch_inv : fw_C prm <> 0 -> exists st, frank_wolfe_batch prm bm Xs Ys (vzero d) = Ok st /\ binv st /\ ((0 < fw_max_iter prm)%nat -> fb_curve st <> []).
  Proof.
    intro HCZ. unfold frank_wolfe_batch. rewrite (proj1 (usable_joint T d Xs Ys bm HU)). cbn [bind]. apply batch_loop_inv; auto.
    split; [apply zero_feasible|]. split; [constructor|]. intros _. split; [apply ascending_nil|constructor].
  Qed.
End loop.

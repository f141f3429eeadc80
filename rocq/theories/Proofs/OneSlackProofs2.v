From Verif Require Import Model.OneSlack Spec.OneSlackSpec Proofs.Arrays Proofs.LossProofs Proofs.MaxProdProofs Proofs.CRFProofs Proofs.LearnerProofs
  Proofs.QPProofs Proofs.QPProofs2 Proofs.NSlackProofs Proofs.NSlackProofs2 Proofs.NSlackProofs4 Proofs.NSlackProofs5 Proofs.OneSlackQP Proofs.OneSlackPrune
  Proofs.OneSlackCache Proofs.OneSlackProofs.

Lemma batch_good {X Y} (bm : bmodel X Y) T d Xs Ys : batch_ok bm T d Xs Ys -> good T d Xs Ys.
Proof.
  intros [_ [HL [HO _]]]. split; auto. intros p Hp. destruct (HO p Hp) as [[H1 [H2 H3]] _]. split; auto. split; auto.
  intros y' Hy'. apply H3; auto.
Qed.

Section fit.
Context {X Y : Type} (T : task X Y) (d : nat) (ceq : Y -> Y -> res bool) (solve : qp_solver) (prm : os_params).
Variables (Xs : list X) (Ys : list Y).
Notation SS := (combine Xs Ys).
Notation usable := (usable T d prm Xs Ys).

Lemma gt_value bm : batch_ok bm T d Xs Ys ->
  bm_joint bm Xs Ys (if sm_rescale (bm_s bm) then Some Ys else None) = Ok (feat_sum T d Xs Ys).
Proof.
  intro H. assert (G := batch_good _ _ _ _ _ H). destruct H as [_ [_ [_ [HB _]]]]. apply HB. apply (good_label T d). auto.
Qed.

Lemma fit_split bm sw ws st reason : usable bm -> os_fit ceq solve prm bm sw Xs Ys ws = Ok (st, reason) ->
  exists s0 st0 bm' p obj, os_start prm d ws = Ok s0 /\
    os_loop ceq solve prm Xs Ys (feat_sum T d Xs Ys) (o_max_iter prm) bm sw s0 = Ok (st0, reason, bm') /\
    objective_primal (bm_s bm') (o_w st0) Xs Ys (o_C prm) OneSlack = Ok p /\ o_obj st0 = Some obj /\
    st = OSState (o_w st0) (o_cons st0) (o_alphas st0) (o_slack st0) (o_icache st0) (o_curve st0 ++ [obj])
           (o_primal st0 ++ [p]) (o_cached st0 ++ [false]) (o_ctol st0) (Some obj).
Proof.
  intros [HB _] H. unfold os_fit in H. apply bind_ok in H. destruct H as [s0 [E0 H]]. rewrite (proj1 HB) in E0.
  rewrite (gt_value bm HB) in H. cbn [bind] in H. apply bind_ok in H. destruct H as [[[st0 r] bm'] [EL H]].
  apply bind_ok in H. destruct H as [p [EP H]]. apply bind_ok in H. destruct H as [obj [EO H]].
  destruct (o_obj st0) as [o|] eqn:EOB; [|discriminate]. injection EO as <-. injection H as <- <-.
  exists s0, st0, bm', p, o. auto.
Qed.

Definition old_curve (ws : warm Y) : list Qc := match ws with Cold => [] | Soft a => oa_curve a | Warm a => oa_curve a end.
Lemma fit_inv ws bm sw st reason : (0 < length Xs)%nat -> 0 <= o_C prm -> qp_sound solve -> usable bm -> (forall b, sw = Some b -> usable b) ->
  start_ok T d Xs Ys ws ->
  os_fit ceq solve prm bm sw Xs Ys ws = Ok (st, reason) ->
  exists st0 bm' p obj, inv T d Xs Ys prm (old_curve ws) st0 /\
    (qp_exact solve -> o_neg prm = None -> near T d Xs Ys prm st0) /\ (bm' = bm \/ sw = Some bm') /\
    (reason = OSNoConstraint -> find_new prm bm' Xs Ys (feat_sum T d Xs Ys) (o_w st0) (o_slack st0) (o_cons st0) = Ok None) /\
    objective_primal (bm_s bm') (o_w st0) Xs Ys (o_C prm) OneSlack = Ok p /\ o_obj st0 = Some obj /\
    st = OSState (o_w st0) (o_cons st0) (o_alphas st0) (o_slack st0) (o_icache st0) (o_curve st0 ++ [obj])
           (o_primal st0 ++ [p]) (o_cached st0 ++ [false]) (o_ctol st0) (Some obj).
Proof.
  intros HN HC HS HB HSW HWS H. apply fit_split in H; auto. destruct H as [s0 [st0 [bm' [p [obj [E0 [EL [EP [EO ES]]]]]]]]].
  assert (G := batch_good _ _ _ _ _ (proj1 HB)).
  destruct (start_inv T d Xs Ys G prm (old_curve ws) ws HWS) as [s1 [E1 [I1 N1]]].
  { intros a [-> | ->]; reflexivity. } { intros ->. reflexivity. } assert (s1 = s0) by congruence. subst s1.
  destruct (loop_inv T d Xs Ys G HN ceq solve prm HC (old_curve ws) _ HS bm sw s0 st0 reason bm' HB HSW I1 (fun _ _ => N1) EL) as [A1 [A2 [A3 A4]]].
  exists st0, bm', p, obj. repeat (split; auto).
Qed.

Lemma fit1_lower_bound_gen ws bm sw st reason : (0 < length Xs)%nat -> 0 <= o_C prm -> qp_sound solve -> usable bm -> (forall b, sw = Some b -> usable b) ->
  start_ok T d Xs Ys ws ->
  os_fit ceq solve prm bm sw Xs Ys ws = Ok (st, reason) ->
  length (o_w st) = d /\
  (exists new, o_curve st = old_curve ws ++ new /\ forall o, In o new -> forall w' hs, length w' = d -> hinges T w' SS hs -> o <= primal_value (o_C prm) w' hs) /\
  (forall idx, o_neg prm = Some idx -> forall i, In i idx -> get1 (o_w st) i <= 0) /\
  Forall (fun c => exists Yh, mean_con T d Xs Ys Yh c) (o_cons st) /\
  cache_valid T Xs Ys (o_icache st) /\
  (exists v, worst (o_w st) (o_cons st) v /\ o_slack st = Qcmax v 0).
Proof.
  intros HN HC HS HB HSW HWS H. destruct (fit_inv ws bm sw st reason HN HC HS HB HSW HWS H) as [st0 [bm' [p [obj [[I1 [I2 [I3 [I4 [I5 I6]]]]] [_ [_ [_ [_ [EO ->]]]]]]]]]].
  destruct (I6 obj EO) as [L [NG SL]]. cbn [o_w o_curve o_cons o_slack o_icache]. split; auto. split; [|repeat split; auto].
  destruct I5 as [new [E5 I5]]. exists (new ++ [obj]). rewrite E5, app_assoc. split; auto.
  intros o Ho. apply in_app_or in Ho. destruct Ho as [Ho|[<-|[]]]; [|exact L]. rewrite Forall_forall in I5. exact (I5 o Ho).
Qed.
Lemma fit1_lower_bound bm sw st reason : (0 < length Xs)%nat -> 0 <= o_C prm -> qp_sound solve -> usable bm -> (forall b, sw = Some b -> usable b) ->
  os_fit ceq solve prm bm sw Xs Ys Cold = Ok (st, reason) ->
  length (o_w st) = d /\
  (forall o, In o (o_curve st) -> forall w' hs, length w' = d -> hinges T w' SS hs -> o <= primal_value (o_C prm) w' hs) /\
  (forall idx, o_neg prm = Some idx -> forall i, In i idx -> get1 (o_w st) i <= 0) /\
  Forall (fun c => exists Yh, mean_con T d Xs Ys Yh c) (o_cons st) /\
  (exists v, worst (o_w st) (o_cons st) v /\ o_slack st = Qcmax v 0).
Proof.
  intros HN HC HS HB HSW H. destruct (fit1_lower_bound_gen Cold bm sw st reason HN HC HS HB HSW I H) as [A1 [[new [A2 A3]] [A4 [A5 [_ A6]]]]].
  split; auto. split; [|auto]. rewrite A2. exact A3.
Qed.

Lemma exact_hinges bm w : good T d Xs Ys -> batch_exact bm T d Xs Ys -> length w = d ->
  exists Yh, bm_laug bm Xs Ys w = Ok Yh /\ labelling T Xs Yh /\ hinges T w SS (margins T w Xs Ys Yh).
Proof.
  intros G [_ [_ HE]] Hw. destruct (HE w Hw) as [Yh [EY HF]]. exists Yh. split; auto.
  destruct G as [L _]. clear - HF L. unfold hinges, labelling, margins. revert Ys L Yh HF.
  induction Xs as [|x xs IH]; intros [|y ys] L Yh HF; try discriminate; inversion HF; subst.
  - split; constructor.
  - cbn [length] in L. injection L as L. destruct (IH ys L _ H3) as [A1 A2]. destruct H1 as [B1 B2]. cbn [fst snd] in *.
    split; constructor; auto.
Qed.
Lemma hinges_unique w hs hs' : hinges T w SS hs -> hinges T w SS hs' -> hs = hs'.
Proof.
  unfold hinges. intro H. revert hs'. induction H as [|p h l r HP HF IH]; intros hs' H'; inversion H'; subst; auto.
  f_equal; auto. eapply is_hinge_unique; eauto.
Qed.

Lemma fit1_near_optimal_gen ws bm sw st : (0 < length Xs)%nat -> 0 <= o_C prm -> 0 <= o_tol prm -> qp_sound solve ->
  batch_exact bm T d Xs Ys -> (o_cache prm = O \/ sm_rescale (bm_s bm) = false) ->
  (forall b, sw = Some b -> batch_exact b T d Xs Ys /\ (o_cache prm = O \/ sm_rescale (bm_s b) = false)) ->
  start_ok T d Xs Ys ws ->
  os_fit ceq solve prm bm sw Xs Ys ws = Ok (st, OSNoConstraint) ->
  exists hs v, hinges T (o_w st) SS hs /\ worst (o_w st) (o_cons st) v /\
    last (o_primal st) 0 = primal_value (o_C prm) (o_w st) hs /\
    primal_value (o_C prm) (o_w st) hs <=
      o_C prm * ofN (length Xs) * Qcmax v 0 + normsq (o_w st) / (1 + 1) + o_C prm * ofN (length Xs) * o_tol prm /\
    (qp_exact solve -> o_neg prm = None -> In (vzero d, 0) (o_cons st) ->
     forall w' hs', length w' = d -> hinges T w' SS hs' ->
       primal_value (o_C prm) (o_w st) hs <= primal_value (o_C prm) w' hs' + o_C prm * ofN (length Xs) * o_tol prm
         + qp_reg * (o_C prm * ofN (length Xs) * (o_C prm * ofN (length Xs)))).
Proof.
  intros HN HC HT HS HB HR HSW HWS H.
  assert (HU : usable bm) by (split; [apply HB|auto]).
  assert (HUS : forall b, sw = Some b -> usable b). { intros b Eb. destruct (HSW b Eb) as [A B]. split; [apply A|auto]. }
  destruct (fit_inv ws bm sw st _ HN HC HS HU HUS HWS H) as [st0 [bm' [p [obj [II [NR [HM [FN [EP [EO ->]]]]]]]]]].
  assert (G := batch_good _ _ _ _ _ (proj1 HB)). assert (HX : batch_exact bm' T d Xs Ys).
  { destruct HM as [->|HM]; auto. apply HSW; auto. }
  specialize (FN eq_refl). assert (Hw : length (o_w st0) = d) by apply II.
  destruct (find_new_form T d Xs Ys G HN prm bm' _ _ _ _ (proj1 HX) Hw FN) as [Yh [c [bad [EY [MC [EB Er]]]]]].
  destruct bad; [|discriminate].
  destruct (exact_hinges bm' (o_w st0) G HX Hw) as [Yh' [EY' [LA HH]]]. assert (Yh' = Yh) by congruence. subst Yh'.
  set (hs := margins T (o_w st0) Xs Ys Yh) in *.
  assert (CV := con_violation T d Xs Ys G HN (o_w st0) Yh c Hw MC). fold hs in CV.
  assert (CL := con_length T d Xs Ys G Yh c MC).
  assert (SB := stop_bound T d Xs Ys G prm (old_curve ws) st0 _ c HT II ltac:(congruence) CL EB).
  assert (NE : Xs <> []) by (destruct Xs; [cbn in HN; lia|discriminate]).
  destruct II as [I1 [I2 [I3 [I4 [I5 I6]]]]]. destruct (I6 obj EO) as [_ [_ [v [WV SV]]]].
  destruct HX as [HX1 [HX2 HX3]]. 
  destruct (objective_value (bm_s bm') T d (o_w st0) Xs Ys (o_C prm) OneSlack (proj1 G) NE Hw) as [hs2 [H2 EP2]].
  { intros q Hq. destruct (HX2 q Hq) as [A B]. auto. }
  assert (hs2 = hs) by (eapply hinges_unique; eauto). subst hs2.
  assert (MP := mean_primal Xs HN (o_C prm) (o_w st0) hs).
  rewrite CV in SB.
  assert (LE : primal_value (o_C prm) (o_w st0) hs <= o_C prm * ofN (length Xs) * o_slack st0 + normsq (o_w st0) / (1 + 1) + o_C prm * ofN (length Xs) * o_tol prm).
  { rewrite <- MP. assert (P := Qcmult_le_compat_r _ _ (o_C prm * ofN (length Xs)) SB (Cn_nonneg _ _ HC)).
    rewrite (Qcmult_comm _ (lsum hs / _)), (Qcmult_comm _ (o_slack st0)), (Qcmult_comm _ (o_tol prm)).
    rewrite Qcmult_plus_distr_l in P. set (x1 := lsum hs / _ * _) in *. set (x2 := o_slack st0 * _) in *. set (x3 := o_tol prm * _) in *.
    set (x4 := normsq (o_w st0) / (1 + 1)). clearbody x1 x2 x3 x4. qclra. }
  exists hs, v. cbn [o_w o_cons o_primal o_slack]. split; auto. split; auto. split.
  { rewrite last_last. congruence. }
  split. { rewrite <- SV. exact LE. }
  intros QX HNeg HG w' hs' Hw' HH'.
  assert (NN : near T d Xs Ys prm st0) by (apply NR; auto).
  specialize (NN ltac:(congruence) HG w' hs' Hw' HH'). unfold gap in NN.
  set (x1 := qp_reg * _) in *. set (x2 := primal_value _ w' _) in *. set (x3 := primal_value _ _ hs) in *.
  set (x4 := o_C prm * ofN (length Xs) * o_tol prm) in *. set (x5 := o_C prm * ofN (length Xs) * o_slack st0) in *.
  set (x6 := normsq (o_w st0) / (1 + 1)) in *. clearbody x1 x2 x3 x4 x5 x6. qclra.
Qed.

Lemma fit1_near_optimal bm sw st : (0 < length Xs)%nat -> 0 <= o_C prm -> 0 <= o_tol prm -> qp_sound solve ->
  batch_exact bm T d Xs Ys -> (o_cache prm = O \/ sm_rescale (bm_s bm) = false) ->
  (forall b, sw = Some b -> batch_exact b T d Xs Ys /\ (o_cache prm = O \/ sm_rescale (bm_s b) = false)) ->
  os_fit ceq solve prm bm sw Xs Ys Cold = Ok (st, OSNoConstraint) ->
  exists hs v, hinges T (o_w st) SS hs /\ worst (o_w st) (o_cons st) v /\
    last (o_primal st) 0 = primal_value (o_C prm) (o_w st) hs /\
    primal_value (o_C prm) (o_w st) hs <=
      o_C prm * ofN (length Xs) * Qcmax v 0 + normsq (o_w st) / (1 + 1) + o_C prm * ofN (length Xs) * o_tol prm /\
    (qp_exact solve -> o_neg prm = None -> In (vzero d, 0) (o_cons st) ->
     forall w' hs', length w' = d -> hinges T w' SS hs' ->
       primal_value (o_C prm) (o_w st) hs <= primal_value (o_C prm) w' hs' + o_C prm * ofN (length Xs) * o_tol prm
         + qp_reg * (o_C prm * ofN (length Xs) * (o_C prm * ofN (length Xs)))).
Proof. intros HN HC HT HS HB HR HSW H. exact (fit1_near_optimal_gen Cold bm sw st HN HC HT HS HB HR HSW I H). Qed.

(** ** the default batch methods *)
Lemma base_batch_ok (m : smodel X Y) : length Xs = length Ys -> sm_size m = d -> oracle_ok m T d SS -> batch_ok (base_bmodel m) T d Xs Ys.
Proof.
  intros HL Hd HO. assert (G : good T d Xs Ys).
  { split; auto. intros p Hp. destruct (HO p Hp) as [[H1 [H2 H3]] _]. split; auto. split; auto. intros y' Hy'. apply H3; auto. }
  split; [exact Hd|]. split; auto. split; [exact HO|]. split.
  - intros Yh HY. split.
    + assert (FL := feat_len T d Xs Ys Yh G HY).
      assert (SF : sum_features (vzero (sm_size m)) (map Ok (map (fun p => t_feat T (fst p) (snd p)) (combine Xs Yh))) = Ok (feat_sum T d Xs Yh)).
      { rewrite (sum_features_ok d) by (auto; rewrite vzero_length; auto). f_equal. rewrite Hd. apply vadd_vzero_l. apply fold_vadd_length. auto. }
      cbn [base_bmodel bm_joint bm_s]. destruct (sm_rescale m) eqn:ER.
      * rewrite <- SF. f_equal. clear - HY HL HO ER. rewrite map_map. revert Ys Yh HL HO HY. induction Xs as [|x xs IH]; intros [|y ys] Yh HL HO HY; try discriminate; inversion HY; subst; auto.
        cbn [combine map fst snd]. f_equal.
        -- destruct (HO (x, y) (or_introl eq_refl)) as [[_ [_ H]] _]. cbn [fst snd] in H. rewrite ER in H. match goal with L : t_label T x _ |- _ => apply (H _ L) end.
        -- apply IH; auto. intros p Hp. apply HO. right. auto.
      * rewrite <- SF. f_equal. clear - HY HL HO ER. rewrite map_map. revert Ys Yh HL HO HY. induction Xs as [|x xs IH]; intros [|y ys] Yh HL HO HY; try discriminate; inversion HY; subst; auto.
        cbn [combine map fst snd]. f_equal.
        -- destruct (HO (x, y) (or_introl eq_refl)) as [[_ [_ H]] _]. cbn [fst snd] in H. rewrite ER in H. match goal with L : t_label T x _ |- _ => apply (H _ L) end.
        -- apply (IH ys); auto. intros p Hp. apply HO. right. auto.
    + cbn [base_bmodel bm_loss]. apply mapM_ok. intros [y yh] Hp. unfold sm_full_loss. cbn [fst snd].
      assert (exists x, In (x, y) SS /\ t_label T x yh) as [x [I1 I2]].
      { clear - HY HL Hp. revert Ys Yh HL HY Hp. induction Xs as [|x xs IH]; intros [|y0 ys] Yh HL HY Hp; try discriminate; inversion HY; subst; [destruct Hp|].
        destruct Hp as [E|Hp]. { injection E as -> ->. exists x. split; auto. left; auto. }
        destruct (IH ys l' ltac:(auto) H3 Hp) as [x' [A B]]. exists x'. split; auto. right; auto. }
      destruct (HO (x, y) I1) as [[_ [_ H]] _]. apply (H yh I2).
  - intros w Hw. cbn [base_bmodel bm_laug]. clear - HL HO Hw. revert Ys HL HO. induction Xs as [|x xs IH]; intros [|y ys] HL HO; try discriminate.
    + exists []. split; [reflexivity|constructor].
    + destruct (IH ys ltac:(auto)) as [Yh [E1 E2]]. { intros p Hp. apply HO. right. auto. }
      destruct (HO (x, y) (or_introl eq_refl)) as [_ H]. destruct (H w Hw) as [yh [E3 E4]]. exists (yh :: Yh). cbn [combine mapM fst snd] in *.
      rewrite E3. cbn [bind]. rewrite E1. cbn [bind]. split; [reflexivity|constructor; auto].
Qed.
Lemma base_batch_exact (m : smodel X Y) : length Xs = length Ys -> sm_size m = d -> oracle_exact m T d SS -> batch_exact (base_bmodel m) T d Xs Ys.
Proof.
  intros HL Hd HO. split; [|split].
  - apply base_batch_ok; auto. intros p Hp. destruct (HO p Hp) as [A B]. split; auto. intros w Hw. destruct (B w Hw) as [yh [E1 [E2 _]]]. eauto.
  - exact HO.
  - intros w Hw. cbn [base_bmodel bm_laug]. clear - HL HO Hw. revert Ys HL HO. induction Xs as [|x xs IH]; intros [|y ys] HL HO; try discriminate.
    + exists []. split; [reflexivity|constructor].
    + destruct (IH ys ltac:(auto)) as [Yh [E1 E2]]. { intros p Hp. apply HO. right. auto. }
      destruct (HO (x, y) (or_introl eq_refl)) as [_ H]. destruct (H w Hw) as [yh [E3 [E4 E5]]]. exists (yh :: Yh). cbn [combine mapM fst snd] in *.
      rewrite E3. cbn [bind]. rewrite E1. cbn [bind]. split; [reflexivity|]. constructor; auto. cbn [fst snd]. split; auto. split; [eauto|].
      intros y' Hy'. specialize (E5 y' Hy'). unfold margin. qclra.
Qed.
End fit.

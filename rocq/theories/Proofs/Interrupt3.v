(** Interruption: states between two batches, Frank-Wolfe and subgradient updates. *)
From Coq Require Import ZArith.
From Verif Require Import Model.Interrupt Spec.InterruptSpec Spec.FrankWolfeSpec Spec.PruneSpec Proofs.Arrays Proofs.LossProofs Proofs.LearnerProofs Proofs.QPProofs Proofs.QPProofs2
  Proofs.NSlackProofs Proofs.NSlackProofs2 Proofs.NSlackProofs3 Proofs.NSlackProofs4 Proofs.PruneProofs Proofs.NSlackProofs5 Proofs.OneSlackPrune Proofs.Interrupt Proofs.Interrupt2
  Proofs.FrankWolfeProofs Proofs.FrankWolfeProofs2 Proofs.FrankWolfeProofs4.

Section steady.
Context {X Y : Type} (T : task X Y) (d : nat) (yeq : Y -> Y -> bool) (solve : qp_solver) (prm : ns_params).
Variables (Xs : list X) (Ys : list Y).
Hypothesis HC : 0 <= ns_C prm.
Hypothesis HXY : length Xs = length Ys.
Notation SS := (combine Xs Ys).
Hypothesis HS : qp_sound solve.

Lemma run_length n (cs : list (list (ncon Y))) r : Forall (fun q : list Qc * Qc => length (fst q) = d) (map ncon_pair (concat cs)) ->
  run_qp solve (n_slack_problem (ns_C prm) (ns_neg prm) n (map (fun c => fst (ncon_pair c)) (concat cs)) (map (fun c => snd (ncon_pair c)) (concat cs)) (map (@length _) cs)) = Ok r ->
  length (fst r) = length (concat cs).
Proof.
  intros HFl EQ. destruct r as [a v]. unfold run_qp in EQ. apply bind_ok in EQ. destruct EQ as [p0 [EP EQ]].
  assert (FE : forall reg p, n_slack_problem (ns_C prm) (ns_neg prm) n (map (fun c => fst (ncon_pair c)) (concat cs)) (map (fun c => snd (ncon_pair c)) (concat cs)) (map (@length _) cs) reg = Ok p ->
     qp_feasible p a -> length a = length (concat cs)).
  { intros reg p E F. assert (NE : map (fun c => fst (ncon_pair c)) (concat cs) <> []).
    { intro Z. unfold n_slack_problem in E. rewrite Z in E. discriminate. }
    apply (nslack_feasible_iff _ _ _ _ _ _ _ _ d a NE) in E.
    - apply E in F. destruct F as [F _]. rewrite F, map_length. reflexivity.
    - apply Forall_forall. intros u Hu. apply in_map_iff in Hu. destruct Hu as [c [<- Hc]].
      rewrite Forall_forall in HFl. apply HFl. apply in_map; auto.
    - rewrite !map_length. reflexivity. }
  destruct (solve p0) as [[a0 v0]|] eqn:ES.
  - injection EQ as <- <-. destruct (HS _ _ _ ES) as [F _]. eapply FE; eauto.
  - apply bind_ok in EQ. destruct EQ as [p1 [EP1 EQ]]. destruct (solve p1) as [[a0 v0]|] eqn:ES1; [|discriminate].
    injection EQ as <- <-. destruct (HS _ _ _ ES1) as [F _]. eapply FE; eauto.
Qed.
Lemma steady_start w : length w = d -> steady T d prm SS (NSState w (repeat [] (length Xs)) (repeat [] (length Xs)) None).
Proof.
  intro L. assert (LS := SS_len Xs Ys HXY). split; auto. cbn [st_cons st_active]. split.
  - unfold true_cons. rewrite <- LS. generalize SS. induction l; cbn; constructor; auto.
  - intros _. generalize (length Xs). induction n; cbn; constructor; auto.
Qed.
Lemma steady_step m b st sl st' new sl' : oracle_ok m T d SS -> steady T d prm SS st ->
  ns_batch_step yeq solve prm m SS (length Xs) b st sl = Ok (st', new, sl') -> steady T d prm SS st'.
Proof.
  intros HO HT H. assert (feat_len := feat_len_ok T d m Xs Ys HO). assert (LS := label_self_ok T d m Xs Ys HO).
  assert (label_self := fun p Hp => proj1 (LS p Hp)). destruct HT as [A1 [A2 A3]].
  unfold ns_batch_step in H. apply bind_ok in H. destruct H as [cands [EM H]]. apply bind_ok in H. destruct H as [[[cs nw] s1] [EG H]].
  assert (CO := cands_ok T d SS m (st_w st) (fst b) (snd b) cands HO A1 EM). assert (ND := batch_nodup b cands).
  destruct (gather_grown T yeq prm Xs Ys _ _ _ _ _ _ _ _ A2 CO ND EG) as [B1 B2].
  destruct (Nat.eqb_spec nw 0) as [Z|NZ].
  - subst nw. injection H as <- <- <-. destruct (gather_slacks _ _ _ _ _ _ _ 0 _ _ _ EG) as [s2 EG0].
    assert (E := gather_points_last _ _ _ _ _ _ _ _ _ _ EG0). rewrite (gather_points_none _ _ _ _ _ _ _ _ _ EG0) in E.
    cbn in E. subst cs. split; auto.
  - apply bind_ok in H. destruct H as [[[[w obj] cs2] ac2] [ES H]]. injection H as <- <- <-.
    assert (HFl := wvalid_len T d SS feat_len label_self cs B1).
    destruct (solve_sound solve prm _ d _ _ _ _ _ _ HS HC HFl ES) as [C1 [_ [_ C4]]]. split; auto. split; [exact (wvalid_incl T SS cs cs2 B1 C4)|].
    intros NZw. cbn [st_cons st_active]. unfold solve_n_slack_qp in ES.
    apply bind_ok in ES. destruct ES as [r [ER ES]]. apply bind_ok in ES. destruct ES as [q [EP ES]]. apply bind_ok in ES. destruct ES as [w1 [EW ES]].
    injection ES as <- _ <- <-. rewrite concat_pairs in HFl. assert (La := run_length _ _ _ HFl ER).
    unfold prune_constraints in EP. destruct (Nat.eqb_spec (ns_window prm) 0) as [Z|_]; [contradiction|].
    assert (CT : counted cs (st_active st)) by (eapply grown_almost; [exact B2|exact (A3 NZw)]).
    destruct (prune_loop_total (ns_threshold prm * ns_C prm) (ns_window prm) cs (st_active st) (fst r) CT La) as [c2 [a2 [E2 AL]]].
    rewrite E2 in EP. injection EP as <-. exact AL.
Qed.
End steady.

(** ** Frank-Wolfe *)
Section fw.
Context {X Y : Type} (T : task X Y) (d : nat) (prm : fw_params) (m : smodel X Y) (Xs : list X) (Ys : list Y).
Hypothesis HXY : length Xs = length Ys.
Hypothesis HN : (0 < length Xs)%nat.
Notation SS := (combine Xs Ys).
Hypothesis HO : oracle_ok m T d SS.
Notation start := (fw_bc_start d (length Xs) (vzero d) 0).

Lemma trace_state tr : fw_trace prm m Xs Ys start tr -> forall st, st = last tr start ->
  fw_inv T d prm Xs Ys st /\ (fw_avg prm = false -> fs_self_w st = fs_w st /\ fs_self_l st = fs_l st).
Proof.
  assert (G := oracle_good T d Xs Ys m HXY HO).
  assert (I0 : fw_inv T d prm Xs Ys start /\ (fw_avg prm = false -> fs_self_w start = fs_w start /\ fs_self_l start = fs_l start)).
  { split; [apply FrankWolfeProofs2.start_inv; auto|]. intros _. split; reflexivity. }
  revert I0. generalize start. induction tr as [|s tr IH]; intros s0 I0 HT st E; [cbn in E; subst; exact I0|].
  destruct HT as [[i HS] HT]. rewrite last_cons in E. apply (IH s); auto. destruct I0 as [I0 I1].
  split; [eapply step_inv_ok; eauto|]. intro HA. apply step_split in HS.
  destruct HS as [x [y [yh [delta [sl [loss [wi [li [_ [_ [_ [_ [_ [_ [_ ES]]]]]]]]]]]]]]]. cbv zeta in ES. rewrite HA in ES. rewrite ES. split; reflexivity.
Qed.
Lemma removed_feasible st i wi : fw_inv T d prm Xs Ys st -> nth_error (fs_wmat st) i = Some wi -> (i < length Xs)%nat ->
  (exists l', dual_feasible T d (fw_C prm) SS (vsub (fs_w st) wi) l') /\ vadd (vsub (fs_w st) wi) wi = fs_w st.
Proof.
  intros HI Ei Hi. assert (G := oracle_good T d Xs Ys m HXY HO). assert (LM := inv_lengths T d prm Xs Ys G st HI).
  assert (LW := inv_w_length T d prm Xs Ys G st HI). assert (LI : length wi = d) by (rewrite Forall_forall in LM; apply LM; eapply nth_error_In; eauto).
  destruct HI as [I1 [I2 [I3 [I4 _]]]]. split.
  - destruct (nth_error Xs i) as [x|] eqn:E1; [|apply nth_error_None in E1; lia].
    destruct (nth_error Ys i) as [y|] eqn:E2; [|apply nth_error_None in E2; lia].
    assert (Hp : In (x, y) SS) by (eapply nth_error_In; apply nth_error_combine; eauto).
    assert (HSz := good_sized _ _ _ _ G). rewrite Forall_forall in HSz. assert (Hs := HSz _ Hp).
    exists (lsum (set_at i 0 (fs_lmat st))). exists (combine (set_at i (vzero d) (fs_wmat st)) (set_at i 0 (fs_lmat st))). split; [|split].
    + rewrite <- combine_set_at. apply set_at_Forall2 with (a := (x, y)); auto; [apply nth_error_combine; auto|]. apply block_zero; auto.
    + rewrite map_fst_combine by (rewrite !set_at_length; congruence). rewrite (vsum_set_at d i (vzero d) (fs_wmat st) wi); auto; [|apply vzero_length].
      rewrite <- I4. apply vec_ext; [rewrite vadd_length; auto; rewrite vsub_length; rewrite ?vzero_length; congruence|].
      intros j _. rewrite get1_vadd by (rewrite vsub_length; rewrite ?vzero_length; congruence). rewrite get1_vzero. ring.
    + rewrite map_snd_combine by (rewrite !set_at_length; congruence). reflexivity.
  - apply vec_ext; [rewrite vadd_length; rewrite vsub_length; congruence|].
    intros j _. rewrite get1_vadd by (rewrite vsub_length; congruence). rewrite get1_vsub by congruence. ring.
Qed.
(** at every moment the weights belong to a dual point *)
Lemma fw_points_feasible tr i pt w l : fw_trace prm m Xs Ys start tr -> (i < length Xs)%nat ->
  In (pt, (w, l)) (fw_points prm m Xs Ys i (last tr start)) ->
  (exists l', dual_feasible T d (fw_C prm) SS w l') /\ (pt = FBefore \/ pt = FDone -> dual_feasible T d (fw_C prm) SS w l).
Proof.
  intros HT Hi H. assert (G := oracle_good T d Xs Ys m HXY HO). destruct (trace_state tr HT _ eq_refl) as [HI HA].
  set (st := last tr start) in *. clearbody st. assert (DF := HI). destruct DF as [_ [_ [_ [_ [_ DF]]]]].
  destruct H as [E|H]; [injection E as <- <- <-; eauto|].
  destruct (fw_step prm m Xs Ys i st) as [st'|] eqn:ES; [|destruct H]. destruct (index (fs_wmat st) i) as [wi|] eqn:Ew; [|destruct H].
  assert (HI' := step_inv_ok T d prm Xs Ys G HN m i st st' HO HI ES). apply index_ok in Ew.
  destruct (removed_feasible st i wi HI Ew Hi) as [RF _].
  assert (SF := inv_feasible T d prm Xs Ys st' HI'). assert (DF' := HI'). destruct DF' as [_ [_ [_ [_ [_ DF']]]]].
  destruct H as [E|[E|[E|[E|[]]]]]; injection E as <- <- <-; (split; [|intros [Z|Z]; try discriminate Z; auto]).
  - destruct (negb (fw_avg prm) && _); eauto.
  - destruct (negb (fw_avg prm) && _); eauto.
  - eauto.
  - eauto.
Qed.
(** without averaging, the block of the sample is missing for a moment *)
Lemma fw_points_removed tr i w l : fw_trace prm m Xs Ys start tr -> (i < length Xs)%nat -> tr <> [] -> fw_avg prm = false ->
  In (FRemoved, (w, l)) (fw_points prm m Xs Ys i (last tr start)) ->
  exists wi li, nth_error (fs_wmat (last tr start)) i = Some wi /\ nth_error (fs_lmat (last tr start)) i = Some li /\
    vadd w wi = fs_self_w (last tr start) /\ l = fs_self_l (last tr start) /\ dual_feasible T d (fw_C prm) SS w (l - li).
Proof.
  intros HT Hi NE HA H. assert (G := oracle_good T d Xs Ys m HXY HO). destruct (trace_state tr HT _ eq_refl) as [HI HAL]. destruct (HAL HA) as [EW EL].
  assert (HK : (0 < fs_k (last tr start))%nat).
  { destruct tr as [|s tr]; [congruence|]. clear - HT. rewrite last_cons. revert HT. generalize start. revert s. induction tr as [|s' tr IH]; intros s s0 HT.
    - destruct HT as [[j HS] _]. cbn [last]. apply step_split in HS. destruct HS as [x [y [yh [delta [sl [loss [wi [li [_ [_ [_ [_ [_ [_ [_ ES]]]]]]]]]]]]]]].
      cbv zeta in ES. rewrite ES. cbn [fs_k]. lia.
    - destruct HT as [_ HT]. rewrite last_cons. eapply IH. exact HT. }
  set (st := last tr start) in *. clearbody st. destruct H as [E|H]; [discriminate E|].
  destruct (fw_step prm m Xs Ys i st) as [st'|] eqn:ES; [|destruct H]. destruct (index (fs_wmat st) i) as [wi|] eqn:Ew; [|destruct H].
  destruct H as [E|[E|[E|[E|[]]]]]; try discriminate E. rewrite HA in E. cbn [negb andb] in E. destruct (Nat.ltb_spec 0 (fs_k st)); [|lia].
  apply index_ok in Ew. destruct (removed_feasible st i wi HI Ew Hi) as [_ RE].
  assert (LL : length (fs_lmat st) = length Xs) by (destruct HI as [_ [? _]]; auto).
  destruct (nth_error (fs_lmat st) i) as [li|] eqn:Eli; [|apply nth_error_None in Eli; lia].
  injection E as <- <-. exists wi, li. split; auto. split; auto. split; [congruence|]. split; [auto|].
  (* the dual point without the block *)
  assert (LM := inv_lengths T d prm Xs Ys G st HI). assert (LI : length wi = d) by (rewrite Forall_forall in LM; apply LM; eapply nth_error_In; eauto).
  assert (LW := inv_w_length T d prm Xs Ys G st HI).
  destruct HI as [I1 [I2 [I3 [I4 [I5 _]]]]].
  destruct (nth_error Xs i) as [x|] eqn:E1; [|apply nth_error_None in E1; lia].
  destruct (nth_error Ys i) as [y|] eqn:E2; [|apply nth_error_None in E2; lia].
  assert (Hp : In (x, y) SS) by (eapply nth_error_In; apply nth_error_combine; eauto).
  assert (HSz := good_sized _ _ _ _ G). rewrite Forall_forall in HSz. assert (Hs := HSz _ Hp).
  exists (combine (set_at i (vzero d) (fs_wmat st)) (set_at i 0 (fs_lmat st))). split; [|split].
  - rewrite <- combine_set_at. apply set_at_Forall2 with (a := (x, y)); auto; [apply nth_error_combine; auto|]. apply block_zero; auto.
  - rewrite map_fst_combine by (rewrite !set_at_length; congruence). rewrite (vsum_set_at d i (vzero d) (fs_wmat st) wi); auto; [|apply vzero_length].
    rewrite <- I4. apply vec_ext; [rewrite vadd_length; auto; rewrite vsub_length; rewrite ?vzero_length; congruence|].
    intros j _. rewrite get1_vadd by (rewrite vsub_length; rewrite ?vzero_length; congruence). rewrite get1_vzero. ring.
  - rewrite map_snd_combine by (rewrite !set_at_length; congruence). rewrite (lsum_set_at i 0 (fs_lmat st) li) by auto. rewrite EL, I5. ring.
Qed.
(** ... with averaging it is not: weights only change by assignment *)
Lemma fw_points_average i st pt w l : fw_avg prm = true -> In (pt, (w, l)) (fw_points prm m Xs Ys i st) ->
  (w = fs_self_w st /\ l = fs_self_l st) \/ exists st', fw_step prm m Xs Ys i st = Ok st' /\ w = fs_self_w st' /\ (l = fs_self_l st \/ l = fs_self_l st').
Proof.
  intros HA [E|H]; [injection E as _ <- <-; auto|]. destruct (fw_step prm m Xs Ys i st) as [st'|] eqn:ES; [|destruct H].
  destruct (index (fs_wmat st) i) as [wi|]; [|destruct H]. rewrite HA in H. cbn [negb andb] in H.
  destruct H as [E|[E|[E|[E|[]]]]]; injection E as <- <- <-; eauto; right; exists st'; auto.
Qed.
Lemma fw_points_end i st st' : fw_step prm m Xs Ys i st = Ok st' ->
  last (fw_points prm m Xs Ys i st) (FBefore, (fs_self_w st, fs_self_l st)) = (FDone, (fs_self_w st', fs_self_l st')).
Proof.
  intro ES. unfold fw_points. rewrite ES. apply step_split in ES. destruct ES as [x [y [yh [delta [sl [loss [wi [li [_ [_ [_ [E4 _]]]]]]]]]]]].
  unfold index. rewrite E4. reflexivity.
Qed.
End fw.

(** ** subgradient *)
Lemma sg_points_shape prm n lr dj first st pt w t : In (pt, (w, t)) (sg_points prm n lr dj first st) ->
  (w = sg_self st /\ t = sg_t st) \/
  exists st', solve_subgradient prm n lr dj st = Ok st' /\ w = sg_self st' /\ (t = sg_t st' /\ pt = SDone \/ S t = sg_t st' /\ pt <> SDone).
Proof.
  intros [E|H]; [injection E as _ <- <-; auto|]. destruct (solve_subgradient prm n lr dj st) as [st'|] eqn:ES; [|destruct H].
  assert (EX : sg_self st' = sg_expose (sg_avg prm) (sg_t st) (sg_self st) (sg_w st') /\ sg_t st' = S (sg_t st)).
  { unfold solve_subgradient in ES. repeat (apply bind_ok in ES; destruct ES as [? [_ ES]]). injection ES as <-. split; reflexivity. }
  destruct EX as [E1 E2].
  destruct H as [E|[E|[E|[]]]]; injection E as <- <- <-.
  - destruct (sg_avg prm) eqn:EA; auto. destruct first; auto. right. exists st'. split; auto. split; [rewrite E1; reflexivity|]. right. split; [auto|discriminate].
  - right. exists st'. split; auto. split; auto. right. split; [auto|discriminate].
  - right. exists st'. auto.
Qed.
Lemma sg_points_end prm n lr dj first st st' : solve_subgradient prm n lr dj st = Ok st' ->
  last (sg_points prm n lr dj first st) (SBefore, (sg_self st, sg_t st)) = (SDone, (sg_self st', sg_t st')).
Proof. intro E. unfold sg_points. rewrite E. reflexivity. Qed.

(** Interruption of NSlackSSVM: the points of a batch, and resuming. *)
From Coq Require Import ZArith.
From Verif Require Import Model.Interrupt Spec.InterruptSpec Spec.PruneSpec Proofs.Arrays Proofs.LossProofs Proofs.LearnerProofs Proofs.QPProofs Proofs.QPProofs2
  Proofs.NSlackProofs Proofs.NSlackProofs2 Proofs.NSlackProofs3 Proofs.NSlackProofs4 Proofs.PruneProofs Proofs.NSlackProofs5 Proofs.OneSlackPrune Proofs.Interrupt.

Lemma gather_slacks {Y} (yeq : Y -> Y -> bool) prm w l : forall cs n sl z cs' n' s', gather yeq prm w l cs n sl = Ok (cs', n', s') ->
  exists s2, gather yeq prm w l cs n z = Ok (cs', n', s2).
Proof.
  induction l as [|[i [[[yh dl] slack] loss]] l IH]; intros cs n sl z cs' n' s' H; cbn [gather] in *.
  - injection H as <- <- _. eauto.
  - destruct (negb (Qcltb 0 loss)); [eapply IH; eauto|]. apply bind_ok in H. destruct H as [old [E0 H]]. rewrite E0. cbn [bind].
    apply bind_ok in H. destruct H as [bad [E1 H]]. rewrite E1. cbn [bind]. destruct bad; [eapply IH; eauto|].
    apply bind_ok in H. destruct H as [c1 [E2 H]]. rewrite E2. cbn [bind]. eapply IH; eauto.
Qed.

Section points.
Context {X Y : Type} (T : task X Y) (d : nat) (yeq : Y -> Y -> bool) (solve : qp_solver) (prm : ns_params).
Variables (Xs : list X) (Ys : list Y).
Hypothesis HC : 0 <= ns_C prm.
Hypothesis HXY : length Xs = length Ys.
Notation SS := (combine Xs Ys).
Hypothesis feat_len : forall p y', In p SS -> t_label T (fst p) y' -> length (t_feat T (fst p) y') = d.
Hypothesis label_self : forall p, In p SS -> t_label T (fst p) (snd p).
Hypothesis HS : qp_sound solve.

Lemma gather_points_ok w cands : forall cs p, wvalid T SS cs -> Forall (cand_ok T SS) cands -> NoDup (map fst cands) ->
  In p (gather_points yeq prm w cands cs) -> wvalid T SS p /\ grown (map fst cands) cs p.
Proof.
  induction cands as [|[i [[[yh dl] slack] loss]] cands IH]; intros cs p HV HF HN H; cbn [gather_points] in H; [destruct H|].
  inversion HF as [|? ? F1 F2]; subst. inversion HN as [|? ? N1 N2]; subst. cbn [map fst] in *.
  destruct (negb (Qcltb 0 loss)). { destruct (IH cs p HV F2 N2 H) as [A B]. split; auto. apply grown_cons. exact B. }
  destruct (nth_error cs i) as [old|] eqn:Eo; [|destruct H].
  destruct (check_bad_constraint yeq prm w yh slack old) as [[]|]; [| |destruct H].
  { destruct (IH cs p HV F2 N2 H) as [A B]. split; auto. apply grown_cons. exact B. }
  assert (Li : (i < length cs)%nat) by (apply nth_error_Some; congruence).
  destruct (append_at_spec i (yh, dl, loss) cs Li) as [c1 [E1 [L1 [A1 A2]]]]. rewrite E1 in H.
  assert (HV1 : wvalid T SS c1).
  { eapply append_at_Forall2; [exact HV|exact E1|]. intros b s0 Hb HFb. apply Forall_app. split; auto. constructor; auto.
    destruct F1 as [s' [B1 B2]]. rewrite B1 in Hb. injection Hb as <-. exact B2. }
  assert (G1 : forall q, wvalid T SS q -> grown (map fst cands) c1 q -> grown (i :: map fst cands) cs q).
  { intros q _ [G1 G2]. split; [etransitivity; [symmetry; exact L1|exact G1]|]. intros j t Hj. destruct (Nat.eq_dec j i) as [->|NE].
    + rewrite Eo in Hj. injection Hj as ->. destruct (G2 i _ (A1 t Eo)) as [K|[K _]]; [|contradiction].
      right. split; [simpl; auto|]. eauto.
    + rewrite <- A2 in Hj by auto. destruct (G2 j t Hj) as [K|[K1 K2]]; auto. right. simpl; auto. }
  destruct H as [<-|H].
  - split; auto. apply G1; auto. apply grown_refl.
  - destruct (IH c1 p HV1 F2 N2 H) as [B1 B2]. auto.
Qed.
Lemma gather_grown w cands : forall cs n s cs' n' s', wvalid T SS cs -> Forall (cand_ok T SS) cands -> NoDup (map fst cands) ->
  gather yeq prm w cands cs n s = Ok (cs', n', s') -> wvalid T SS cs' /\ grown (map fst cands) cs cs'.
Proof.
  intros cs n s cs' n' s' HV HF HN H. assert (E := gather_points_last yeq prm w cands cs n s cs' n' s' H).
  destruct (gather_points yeq prm w cands cs) as [|p l] eqn:EP.
  - cbn [last] in E. subst cs'. split; auto. apply grown_refl.
  - apply (gather_points_ok w cands cs cs' HV HF HN). rewrite EP, <- E. clear. revert p. induction l as [|q l IH]; intro p; [left; reflexivity|].
    right. rewrite last_cons. specialize (IH q). rewrite last_cons in IH. rewrite last_cons. exact IH.
Qed.
Lemma batch_nodup (b : nat * nat) (cands : list (Y * list Qc * Qc * Qc)) : NoDup (map fst (combine (seq (fst b) (snd b - fst b)) cands)).
Proof.
  generalize (seq_NoDup (snd b - fst b) (fst b)). generalize (seq (fst b) (snd b - fst b)). clear.
  intro l. revert cands. induction l as [|x l IH]; intros [|c cands] H; simpl; try constructor; inversion H; subst; auto.
  intro K. apply in_map_iff in K. destruct K as [[u v] [Eu K]]. simpl in Eu. subst. apply in_combine_l in K. auto.
Qed.
Lemma steady_counted st : steady T d prm SS st -> ns_window prm <> O -> aligned (st_cons st) (st_active st).
Proof. intros [_ [_ H]] NZ. exact (H NZ). Qed.

(** every point of a batch: constraints are true ones, and at most one sample has constraints
    without counters, as many as there are deletions to do *)
Lemma points_ok m b st k w cs ac : oracle_ok m T d SS -> steady T d prm SS st ->
  In (k, (w, cs, ac)) (ns_points yeq solve prm m SS (length Xs) b st) ->
  length w = d /\ true_cons T SS cs /\ (k <> O -> ns_window prm <> O /\ pending k cs ac) /\ (ns_window prm <> O -> (k <= 1)%nat -> counted cs ac).
Proof.
  intros HO HT [E|H].
  { injection E as <- <- <- <-. destruct HT as [A1 [A2 A3]]. split; auto. split; auto. split; [congruence|]. intros NZ _. apply aligned_almost. exact (A3 NZ). }
  assert (HA := steady_counted st HT). destruct HT as [A1 [A2 A3]].
  destruct (mapM _ _) as [cands|] eqn:EM; [|destruct H].
  assert (CO := cands_ok T d SS m (st_w st) (fst b) (snd b) cands HO A1 EM). assert (ND := batch_nodup b cands).
  apply in_app_iff in H. destruct H as [H|H].
  { apply in_map_iff in H. destruct H as [p [E H]]. injection E as <- <- <- <-.
    destruct (gather_points_ok _ _ _ _ A2 CO ND H) as [B1 B2]. split; auto. split; auto. split; [congruence|].
    intros NZ _. eapply grown_almost; eauto. }
  destruct (gather _ _ _ _ _ _ _) as [[[cs1 new] sl]|] eqn:EG; [|destruct H].
  destruct (gather_grown _ _ _ _ _ _ _ _ A2 CO ND EG) as [B1 B2].
  destruct (Nat.eqb_spec new 0) as [Z|NZn]; [destruct H|].
  cbv zeta in H. destruct (run_qp solve _) as [r|] eqn:EQ; [|destruct H].
  assert (HFl := wvalid_len T d SS feat_len label_self cs1 B1).
  assert (La : length (fst r) = length (concat cs1)).
  { destruct r as [a v]. unfold run_qp in EQ. apply bind_ok in EQ. destruct EQ as [p0 [EP EQ]].
    assert (FE : forall reg p, n_slack_problem (ns_C prm) (ns_neg prm) (length Xs) (map (fun c => fst (ncon_pair c)) (concat cs1)) (map (fun c => snd (ncon_pair c)) (concat cs1)) (map (@length _) cs1) reg = Ok p ->
       qp_feasible p a -> length a = length (concat cs1)).
    { intros reg p E F. assert (NE : map (fun c => fst (ncon_pair c)) (concat cs1) <> []).
      { intro Z. unfold n_slack_problem in E. rewrite Z in E. discriminate. }
      apply (nslack_feasible_iff _ _ _ _ _ _ _ _ d a NE) in E.
      - apply E in F. destruct F as [F _]. rewrite F, map_length. reflexivity.
      - rewrite concat_pairs in HFl. apply Forall_forall. intros u Hu. apply in_map_iff in Hu. destruct Hu as [c [<- Hc]].
        rewrite Forall_forall in HFl. apply HFl. apply in_map; auto.
      - rewrite !map_length. reflexivity. }
    destruct (solve p0) as [[a0 v0]|] eqn:ES.
    - injection EQ as <- <-. destruct (HS _ _ _ ES) as [F _]. eapply FE; eauto.
    - apply bind_ok in EQ. destruct EQ as [p1 [EP1 EQ]]. destruct (solve p1) as [[a0 v0]|] eqn:ES1; [|discriminate].
      injection EQ as <- <-. destruct (HS _ _ _ ES1) as [F _]. eapply FE; eauto. }
  apply in_app_iff in H. destruct H as [H|H].
  - destruct (Nat.eqb_spec (ns_window prm) 0) as [Z|NZ]; [destruct H|]. apply in_map_iff in H. destruct H as [[k0 [u v]] [E H]]. cbn [fst snd] in E. injection E as <- <- <- <-.
    assert (CT : counted cs1 (st_active st)) by (eapply grown_almost; eauto).
    destruct (prune_points_shape (ns_threshold prm * ns_C prm) (ns_window prm) cs1 (st_active st) (fst r) CT La) as [P1 _].
    destruct (P1 _ _ _ H) as [Q1 Q2]. split; auto. split; [exact (wvalid_incl T SS cs1 u B1 Q2)|]. split; auto.
    intros _ Hk. eapply pending_counted; eauto.
  - destruct (prune_constraints prm cs1 (st_active st) (fst r)) as [q|] eqn:EPr; [|destruct H].
    destruct (weights _ _) as [w1|] eqn:EW; [|destruct H]. destruct H as [E|[]]. injection E as <- <- <- <-.
    assert (ES : solve_n_slack_qp solve prm (length Xs) cs1 (st_active st) = Ok (w1, snd r, fst q, snd q)).
    { unfold solve_n_slack_qp. rewrite EQ. cbn [bind]. rewrite EPr. cbn [bind]. rewrite EW. reflexivity. }
    destruct (solve_sound solve prm _ d _ _ _ _ _ _ HS HC HFl ES) as [C1 [_ [_ C4]]]. split; auto. split; [exact (wvalid_incl T SS cs1 _ B1 C4)|].
    split; [congruence|]. intros NZ _. unfold prune_constraints in EPr. destruct (Nat.eqb_spec (ns_window prm) 0) as [Z|_]; [contradiction|].
    assert (CT : counted cs1 (st_active st)) by (eapply grown_almost; eauto).
    destruct (prune_loop_total (ns_threshold prm * ns_C prm) (ns_window prm) cs1 (st_active st) (fst r) CT La) as [c2 [a2 [E2 AL]]].
    rewrite E2 in EPr. injection EPr as <-. apply aligned_almost. exact AL.
Qed.

(** the last point is the end of the batch *)
Lemma points_end m b st sl st' new sl' : ns_batch_step yeq solve prm m SS (length Xs) b st sl = Ok (st', new, sl') ->
  last (ns_points yeq solve prm m SS (length Xs) b st) (O, (st_w st, st_cons st, st_active st)) = (O, (st_w st', st_cons st', st_active st')).
Proof.
  unfold ns_batch_step, ns_points. intro H. apply bind_ok in H. destruct H as [cands [EM H]]. rewrite EM.
  apply bind_ok in H. destruct H as [[[cs nw] s1] [EG H]].
  assert (EG0 : exists s2, gather yeq prm (st_w st) (combine (seq (fst b) (snd b - fst b)) cands) (st_cons st) 0 0 = Ok (cs, nw, s2)).
  { eapply gather_slacks; eauto. }
  destruct EG0 as [s2 EG0]. rewrite EG0.
  assert (LA : forall (B : Type) (l l' : list B) d, last (l ++ l') d = last l' (last l d)).
  { clear. induction l as [|y l IHl]; intros l' d; auto. cbn [app]. rewrite !last_cons. apply IHl. }
  destruct (Nat.eqb_spec nw 0) as [Z|NZ].
  - subst nw. injection H as <- <- <-. assert (E := gather_points_last _ _ _ _ _ _ _ _ _ _ EG0). rewrite (gather_points_none _ _ _ _ _ _ _ _ _ EG0) in *.
    cbn in E. subst cs. reflexivity.
  - apply bind_ok in H. destruct H as [[[[w obj] cs2] ac2] [ES H]]. injection H as <- <- <-. unfold solve_n_slack_qp in ES.
    apply bind_ok in ES. destruct ES as [r [ER ES]]. apply bind_ok in ES. destruct ES as [q [EP ES]]. apply bind_ok in ES. destruct ES as [w1 [EW ES]].
    injection ES as <- _ <- <-. rewrite ER, EP, EW. rewrite last_cons, !LA. reflexivity.
Qed.
End points.

(** ** calling fit again with constraints=svm.constraints_ *)
Section resume.
Context {X Y : Type} (T : task X Y) (d : nat) (yeq : Y -> Y -> bool) (solve : qp_solver) (prm : ns_params).
Variables (Xs : list X) (Ys : list Y).
Hypothesis HC : 0 <= ns_C prm.
Hypothesis HXY : length Xs = length Ys.
Notation SS := (combine Xs Ys).
Hypothesis HS : qp_sound solve.
Hypothesis HNeg : ns_neg prm = None.
Hypothesis HT : forall n psis losses sizes reg p, n_slack_problem (ns_C prm) None n psis losses sizes reg = Ok p -> solve p <> None.

Lemma resume_ok m sw cs ac curve primal bs : oracle_ok m T d SS -> (forall m', sw = Some m' -> oracle_ok m' T d SS) -> ns_break prm = false ->
  (0 < length Xs)%nat -> (0 < ns_max_iter prm)%nat -> batch_slices (ns_batch prm) (length Xs) = Ok bs ->
  true_cons T SS cs -> (ns_window prm <> O -> counted cs ac) -> concat cs <> [] ->
  exists r, ns_fit yeq solve prm m sw Xs Ys (Some cs) (Some (NSAttrs ac curve primal)) = Ok r.
Proof.
  intros HO HSW HB HN HI EB HV HA HE. unfold ns_fit. cbn [at_active at_curve at_primal].
  assert (feat_len := feat_len_ok T d m Xs Ys HO). assert (LS := label_self_ok T d m Xs Ys HO).
  assert (label_self := fun p Hp => proj1 (LS p Hp)).
  assert (HFl := wvalid_len T d SS feat_len label_self cs HV).
  destruct (solve_total d solve prm HNeg HS HT cs ac (length Xs)) as [w [obj [cs' [ac' [ES AL]]]]]; auto.
  { rewrite <- (SS_len Xs Ys HXY). symmetry. eapply Forall2_len. exact HV. }
  rewrite ES. cbn [bind].
  destruct (solve_sound solve prm _ d _ _ _ _ _ _ HS HC HFl ES) as [C1 [_ [_ C4]]].
  assert (QO := QT_ok d solve prm Xs HC HS (Y := Y)).
  set (st0 := NSState w cs' ac' (Some obj)).
  assert (I0 : inv T d SS QT st0).
  { split; [exact C1|]. split; [exact (wvalid_incl T SS cs cs' HV C4)|]. intros o _. exists cs. split; [exact HV|]. split; [exact C4|exact I]. }
  destruct (loop_total T d yeq solve prm Xs Ys HC HXY feat_len label_self HB HNeg HS HT bs EB (ns_max_iter prm) O m sw st0 curve primal HO HSW I0 AL) as [[[[[st cu] pr] re] m'] ER].
  { left. discriminate. }
  rewrite ER. cbn [bind]. destruct (Nat.eqb_spec (ns_max_iter prm) 0) as [Z|_]; [lia|]. cbn [negb ensure bind].
  assert (LI := loop_inv T d yeq solve prm SS (length Xs) feat_len label_self QT QO _ _ m sw _ _ _ _ HO HSW I0 ER).
  destruct LI as [[J1 _] [IM [_ [J4 _]]]].
  assert (HOM : oracle_ok m' T d SS). { destruct IM as [->|IM]; auto. }
  assert (OP : exists v, objective_primal m' (st_w st) Xs Ys (ns_C prm) NSlack = Ok v).
  { unfold objective_primal. destruct (mapM_total (fun p => find_constraint m' (fst p) (snd p) (st_w st) None true) SS) as [cands EM].
    { intros p Hp. destruct (find_total T d Xs Ys m' (st_w st) p HOM J1 Hp) as [yh [_ [_ E]]]. eauto. }
    rewrite EM. cbn [bind]. assert (length cands = length SS) by (eapply mapM_length; eauto).
    destruct (Nat.eqb_spec (length cands) 0) as [Z|_]; [rewrite (SS_len Xs Ys HXY) in *; lia|]. cbn [negb ensure bind]. eauto. }
  destruct OP as [v EV]. rewrite EV. cbn [bind]. destruct (J4 ltac:(lia)) as [o Eo]. rewrite Eo. cbn [bind]. eauto.
Qed.
Lemma resume_fails m sw cs ac curve primal k : oracle_ok m T d SS -> true_cons T SS cs -> ns_window prm <> O -> pending k cs ac -> (2 <= k)%nat ->
  ns_fit yeq solve prm m sw Xs Ys (Some cs) (Some (NSAttrs ac curve primal)) = Err IndexError.
Proof.
  intros HO HV NZ HP Hk. unfold ns_fit. cbn [at_active at_curve at_primal].
  assert (feat_len := feat_len_ok T d m Xs Ys HO). assert (LS := label_self_ok T d m Xs Ys HO).
  assert (label_self := fun p Hp => proj1 (LS p Hp)).
  assert (HFl := wvalid_len T d SS feat_len label_self cs HV).
  assert (HE : concat cs <> []).
  { destruct HP as [cs1 [s [cs2 [ac1 [c [ac2 [-> [_ [_ [L _]]]]]]]]]]. rewrite concat_app. intro Z. apply app_eq_nil in Z. destruct Z as [_ Z].
    cbn [concat] in Z. apply app_eq_nil in Z. destruct Z as [-> _]. cbn in L. lia. }
  assert (Ln : length cs = length Xs). { rewrite <- (SS_len Xs Ys HXY). symmetry. eapply Forall2_len. exact HV. }
  unfold solve_n_slack_qp.
  set (psis := map (fun c => fst (ncon_pair c)) (concat cs)). set (losses := map (fun c => snd (ncon_pair c)) (concat cs)).
  assert (HF' : Forall (fun u => length u = d) psis).
  { unfold psis. rewrite concat_pairs in HFl. apply Forall_forall. intros u Hu. apply in_map_iff in Hu. destruct Hu as [c [<- Hc]].
    rewrite Forall_forall in HFl. apply HFl. apply in_map; auto. }
  assert (NP : psis <> []) by (unfold psis; destruct (concat cs); [congruence|discriminate]).
  assert (PR : exists p, n_slack_problem (ns_C prm) (ns_neg prm) (length Xs) psis losses (map (@length _) cs) 0 = Ok p).
  { unfold n_slack_problem. rewrite (vstack_ok d) by auto. cbn [bind]. rewrite map_length, Ln, Nat.leb_refl. cbn [ensure bind]. rewrite HNeg. cbn [neg_rows bind]. eauto. }
  destruct PR as [p Ep].
  assert (RQ : exists a v, run_qp solve (n_slack_problem (ns_C prm) (ns_neg prm) (length Xs) psis losses (map (@length _) cs)) = Ok (a, v) /\ length a = length psis).
  { unfold run_qp. rewrite Ep. cbn [bind]. destruct (solve p) as [[a v]|] eqn:ES.
    - exists a, (- v). split; auto. destruct (HS _ _ _ ES) as [F _].
      eapply nslack_feasible_iff in F; eauto. { apply F. } unfold losses, psis. rewrite !map_length. reflexivity.
    - exfalso. rewrite HNeg in Ep. eapply HT; eauto. }
  destruct RQ as [a [v [ER La]]]. rewrite ER. cbn [bind fst snd]. unfold prune_constraints. destruct (Nat.eqb_spec (ns_window prm) 0) as [Z|_]; [contradiction|].
  rewrite (pending_fails _ _ k); auto. rewrite La. unfold psis. apply map_length.
Qed.
(** before the first constraint: np.vstack of nothing *)
Lemma resume_empty m sw (cs : list (list (ncon Y))) ac curve primal : concat cs = [] ->
  ns_fit yeq solve prm m sw Xs Ys (Some cs) (Some (NSAttrs ac curve primal)) = Err ValueError.
Proof. intro E. unfold ns_fit, solve_n_slack_qp, run_qp, n_slack_problem. cbn [at_active]. rewrite E. reflexivity. Qed.
Lemma resume_near m sw cs ac curve primal st curve' primal' : oracle_exact m T d SS -> (forall m', sw = Some m' -> oracle_exact m' T d SS) ->
  qp_exact solve -> sm_size m = d -> yeq_ok T yeq SS -> zero_loss_same T SS -> true_cons T SS cs ->
  ns_fit yeq solve prm m sw Xs Ys (Some cs) (Some (NSAttrs ac curve primal)) = Ok (st, curve', primal', NoNewConstraint) ->
  forall hs w' hs', hinges T (st_w st) SS hs -> length w' = d -> hinges T w' SS hs' ->
  primal_value (ns_C prm) (st_w st) hs <= primal_value (ns_C prm) w' hs' +
     ns_C prm * (ofN (length Xs) * small) + qp_reg * (ofN (length Xs) * (ns_C prm * ns_C prm)).
Proof.
  intros HO HOS HE Hd HY HZ HV H hs w' hs' Hh Hw' Hh'.
  apply (fit_near_gen T d yeq solve prm Xs Ys HC HXY m sw (Some cs) (Some (NSAttrs ac curve primal)) st curve' primal' HE HNeg Hd HO HOS HY HV H hs w' hs'); auto.
  apply hinge_under; auto. intros p Hp. apply (label_self_ok T d m Xs Ys (exact_is_ok _ _ _ _ HO) p Hp).
Qed.
End resume.

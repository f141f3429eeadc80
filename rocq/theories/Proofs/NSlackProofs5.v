From Coq Require Import ZArith.
From Verif Require Import Model.NSlack Spec.NSlackSpec Spec.PruneSpec Proofs.Arrays Proofs.LossProofs Proofs.LearnerProofs
  Proofs.QPProofs Proofs.QPProofs2 Proofs.NSlackProofs Proofs.NSlackProofs2 Proofs.NSlackProofs3 Proofs.NSlackProofs4 Proofs.PruneProofs.

Lemma check_old_ok {Y} prm w slack (old : list (ncon Y)) d : ns_break prm = false -> length w = d ->
  Forall (fun c => length (snd (fst c)) = d) old -> exists b, check_old prm w slack old = Ok b.
Proof.
  intros HB Hw HF. induction HF as [|c old F1 HF IH]; cbn [check_old]; [eauto|].
  unfold np_dot. rewrite Hw, F1, Nat.eqb_refl. cbn. rewrite HB. destruct (Qcltb _ _); eauto.
Qed.
Lemma check_bad_ok {Y} (yeq : Y -> Y -> bool) prm w yh slack (old : list (ncon Y)) d : ns_break prm = false -> length w = d ->
  Forall (fun c => length (snd (fst c)) = d) old -> exists b, check_bad_constraint yeq prm w yh slack old = Ok b.
Proof.
  intros HB Hw HF. unfold check_bad_constraint. destruct (Qcltb _ _); eauto. destruct (existsb _ _); eauto.
  destruct (ns_check prm); eauto. eapply check_old_ok; eauto.
Qed.

(** every sample grows by at most one constraint, only those in [idx] grow *)
Definition grown {A} (idx : list nat) (cs cs' : list (list A)) : Prop :=
  length cs = length cs' /\
  forall i s, nth_error cs i = Some s ->
    nth_error cs' i = Some s \/ (In i idx /\ exists c, nth_error cs' i = Some (s ++ [c])).
Lemma append_at_spec {A} i (c : A) : forall cs, (i < length cs)%nat ->
  exists cs', append_at i c cs = Ok cs' /\ length cs' = length cs /\
    (forall s, nth_error cs i = Some s -> nth_error cs' i = Some (s ++ [c])) /\ (forall j, j <> i -> nth_error cs' j = nth_error cs j).
Proof.
  induction i as [|i IH]; intros [|s cs] L; simpl in L; try lia; cbn [append_at].
  - eexists. split; [reflexivity|]. split; [reflexivity|]. split. { simpl. congruence. } intros [|j] H; [congruence|reflexivity].
  - destruct (IH cs ltac:(lia)) as [cs' [E [L' [E1 E2]]]]. rewrite E. cbn [bind]. eexists. split; [reflexivity|]. split; [simpl; lia|].
    split; [simpl; auto|]. intros [|j] H; [reflexivity|]. simpl. apply E2. congruence.
Qed.
Lemma grown_almost {A} idx (cs cs' : list (list A)) : forall active, grown idx cs cs' -> aligned cs active -> almost cs' active.
Proof.
  intros active [L H] AL.
  assert (H' : forall i s, nth_error cs i = Some s -> nth_error cs' i = Some s \/ exists c, nth_error cs' i = Some (s ++ [c])).
  { intros i s Hi. destruct (H i s Hi) as [K|[_ K]]; auto. }
  clear H. revert cs' L H'. induction AL as [|s c cs active E AL IH]; intros [|s' cs'] L H; simpl in L; try lia; [constructor|].
  constructor.
  - destruct (H O s eq_refl) as [K|[x K]]; simpl in K; injection K as ->; [left; exact E|]. right. rewrite app_length. simpl. lia.
  - apply IH. lia. intros i t Hi. exact (H (S i) t Hi).
Qed.

Section total.
Context {X Y : Type} (T : task X Y) (d : nat) (yeq : Y -> Y -> bool) (solve : qp_solver) (prm : ns_params).
Variables (Xs : list X) (Ys : list Y).
Hypothesis HC : 0 <= ns_C prm.
Hypothesis HXY : length Xs = length Ys.
Notation SS := (combine Xs Ys).
Hypothesis feat_len : forall p y', In p SS -> t_label T (fst p) y' -> length (t_feat T (fst p) y') = d.
Hypothesis label_self : forall p, In p SS -> t_label T (fst p) (snd p).
Hypothesis HB : ns_break prm = false.

Lemma wvalid_nth cs i s old : wvalid T SS cs -> nth_error SS i = Some s -> nth_error cs i = Some old -> Forall (valid_con T s) old.
Proof.
  unfold wvalid. intros HV. revert i. induction HV; intros [|i] Ep Eo; simpl in *; try discriminate.
  - congruence.
  - eapply IHHV; eauto.
Qed.
Lemma valid_lens s old : In s SS -> Forall (valid_con T s) old -> Forall (fun c : ncon Y => length (snd (fst c)) = d) old.
Proof.
  intros Hs HV. rewrite Forall_forall in *. intros c Hc. specialize (HV c Hc). destruct c as [[yc dc] lc]. destruct HV as [A [-> _]].
  cbn. rewrite vsub_length; rewrite !feat_len; auto.
Qed.
Lemma gather_total w cands : forall cs new sl, length w = d -> wvalid T SS cs -> Forall (cand_ok T SS) cands -> NoDup (map fst cands) ->
  exists cs' new' sl', gather yeq prm w cands cs new sl = Ok (cs', new', sl') /\ grown (map fst cands) cs cs'.
Proof.
  induction cands as [|[i [[[yh dl] slack] loss]] cands IH]; intros cs new sl Hw HV HF HD; cbn [gather].
  - exists cs, new, sl. split; auto. split; auto.
  - apply Forall_cons_iff in HF. destruct HF as [F1 F2]. cbn [map fst] in *. apply NoDup_cons_iff in HD. destruct HD as [D1 D2].
    assert (WK : forall u v : list (list (ncon Y)), grown (map fst cands) u v -> grown (i :: map fst cands) u v).
    { intros c1 c2 [G1 G2]. split; auto. intros j s Hj. destruct (G2 j s Hj) as [K|[K1 K2]]; auto. right. simpl; auto. }
    destruct (negb (Qcltb 0 loss)).
    { destruct (IH cs new (sl + slack) Hw HV F2 D2) as [cs' [nw [s' [E G]]]]. exists cs', nw, s'. auto. }
    destruct F1 as [s [Es Vs]].
    assert (LV : length cs = length SS) by (symmetry; eapply Forall2_len; exact HV).
    assert (Li : (i < length cs)%nat). { rewrite LV. apply nth_error_Some. congruence. }
    destruct (nth_error cs i) as [old|] eqn:Eo; [|apply nth_error_None in Eo; lia]. cbn [bind].
    destruct (check_bad_ok yeq prm w yh slack old d HB Hw) as [bad Eb].
    { eapply valid_lens; [eapply nth_error_In; exact Es|]. eapply wvalid_nth; eauto. }
    rewrite Eb. cbn [bind]. destruct bad.
    { destruct (IH cs new (sl + slack) Hw HV F2 D2) as [cs' [nw [s' [E G]]]]. exists cs', nw, s'. auto. }
    destruct (append_at_spec i (yh, dl, loss) cs Li) as [c1 [E1 [L1 [A1 A2]]]]. rewrite E1. cbn [bind].
    assert (HV1 : wvalid T SS c1).
    { eapply append_at_Forall2; [exact HV|exact E1|]. intros b s0 Hb HFb. apply Forall_app. split; auto. constructor; auto. congruence. }
    destruct (IH c1 (S new) (sl + slack) Hw HV1 F2 D2) as [cs' [nw [s' [E [G1 G2]]]]]. exists cs', nw, s'. split; auto.
    split; [etransitivity; [symmetry; exact L1|exact G1]|]. intros j t Hj. destruct (Nat.eq_dec j i) as [->|NE].
    + rewrite Eo in Hj. injection Hj as ->. destruct (G2 i _ (A1 t Eo)) as [K|[K _]]; [|contradiction].
      right. split; [simpl; auto|]. eauto.
    + rewrite <- A2 in Hj by auto. destruct (G2 j t Hj) as [K|[K1 K2]]; auto. right. simpl; auto.
Qed.

Hypothesis HNeg : ns_neg prm = None.
Hypothesis HS : qp_sound solve.
Hypothesis HT : forall n psis losses sizes reg p, n_slack_problem (ns_C prm) None n psis losses sizes reg = Ok p -> solve p <> None.

Lemma solve_total (cs : list (list (ncon Y))) active n : length cs = n -> concat cs <> [] ->
  Forall (fun c => length (fst c) = d) (concat (pairs cs)) -> (ns_window prm <> O -> almost cs active) ->
  exists w obj cs' active', solve_n_slack_qp solve prm n cs active = Ok (w, obj, cs', active') /\ (ns_window prm <> O -> aligned cs' active').
Proof.
  intros Ln HN HF HA. unfold solve_n_slack_qp.
  set (psis := map (fun c => fst (ncon_pair c)) (concat cs)). set (losses := map (fun c => snd (ncon_pair c)) (concat cs)).
  assert (HF' : Forall (fun u => length u = d) psis).
  { unfold psis. rewrite concat_pairs in HF. apply Forall_forall. intros u Hu. apply in_map_iff in Hu. destruct Hu as [c [<- Hc]].
    rewrite Forall_forall in HF. apply HF. apply in_map; auto. }
  assert (NP : psis <> []) by (unfold psis; destruct (concat cs); [congruence|discriminate]).
  assert (PR : exists p, n_slack_problem (ns_C prm) (ns_neg prm) n psis losses (map (@length _) cs) 0 = Ok p).
  { unfold n_slack_problem. rewrite (vstack_ok d) by auto. cbn [bind]. rewrite map_length, Ln, Nat.leb_refl. cbn [ensure bind]. rewrite HNeg. cbn [neg_rows bind]. eauto. }
  destruct PR as [p Ep].
  assert (RQ : exists a v, run_qp solve (n_slack_problem (ns_C prm) (ns_neg prm) n psis losses (map (@length _) cs)) = Ok (a, v) /\ length a = length psis).
  { unfold run_qp. rewrite Ep. cbn [bind]. destruct (solve p) as [[a v]|] eqn:ES.
    - exists a, (- v). split; auto. destruct (HS _ _ _ ES) as [F _].
      eapply nslack_feasible_iff in F; eauto. { apply F. } unfold losses, psis. rewrite !map_length. reflexivity.
    - exfalso. rewrite HNeg in Ep. eapply HT; eauto. }
  destruct RQ as [a [v [ER La]]]. rewrite ER. cbn [bind fst snd].
  assert (PC : exists cs' active', prune_constraints prm cs active a = Ok (cs', active') /\ (ns_window prm <> O -> aligned cs' active')).
  { unfold prune_constraints. destruct (Nat.eqb_spec (ns_window prm) 0) as [Z|NZ].
    - exists cs, active. split; auto. congruence.
    - destruct (prune_loop_total (ns_threshold prm * ns_C prm) (ns_window prm) cs active a (HA NZ)) as [c1 [a1 [E AL]]].
      { rewrite La. unfold psis. apply map_length. }
      exists c1, a1. auto. }
  destruct PC as [cs' [active' [EP AL]]]. rewrite EP. cbn [bind fst snd].
  rewrite (weights_comb d) by auto. cbn [bind]. eexists. eexists. eexists. eexists. split; [reflexivity|]. exact AL.
Qed.

Definition calm (st : ns_state Y) : Prop := ns_window prm <> O -> aligned (st_cons st) (st_active st).
Definition QT (w : list Qc) (o : Qc) (groups : list (list (list Qc * Qc))) : Prop := True.
Lemma QT_ok : forall (cs : list (list (ncon Y))) active w obj cs' active',
  Forall (fun c => length (fst c) = d) (concat (pairs cs)) ->
  solve_n_slack_qp solve prm (length Xs) cs active = Ok (w, obj, cs', active') ->
  length w = d /\ QT w obj (pairs cs) /\ Forall2 (fun s s' => incl s' s) cs cs'.
Proof.
  intros cs active w o cs' active' HFc E. destruct (solve_sound solve prm _ d _ _ _ _ _ _ HS HC HFc E) as [A [B [C0 D]]].
  repeat (split; auto).
Qed.
Lemma SS_len : length SS = length Xs.
Proof. rewrite combine_length. lia. Qed.

Lemma mapM_total {A B} (f : A -> res B) l : (forall a, In a l -> exists b, f a = Ok b) -> exists r, mapM f l = Ok r.
Proof.
  induction l as [|a l IH]; intro H; cbn [mapM]; [eauto|]. destruct (H a (or_introl eq_refl)) as [b Eb]. rewrite Eb. cbn [bind].
  destruct (IH (fun x Hx => H x (or_intror Hx))) as [r Er]. rewrite Er. cbn [bind]. eauto.
Qed.
Lemma find_total m w p : oracle_ok m T d SS -> length w = d -> In p SS ->
  exists yh, sm_laug m (fst p) (snd p) w = Ok yh /\ t_label T (fst p) yh /\
    find_constraint m (fst p) (snd p) w None true = Ok (yh, vsub (t_feat T (fst p) (snd p)) (t_feat T (fst p) yh), Qcmax (margin T w (fst p) (snd p) yh) 0, t_loss T (snd p) yh).
Proof.
  intros HO Hw Hp. destruct (HO p Hp) as [HI HL]. destruct (HL w Hw) as [yh [E L]]. exists yh. split; auto. split; auto.
  apply (find_constraint_value m T d); auto.
Qed.
Lemma slice_incl {A} a b (l : list A) x : In x (slice a b l) -> In x l.
Proof.
  unfold slice. intro H. assert (G : forall k (l : list A), In x (firstn k l) -> In x l).
  { clear. induction k; intros [|y l]; simpl; tauto || (intros [->|H]; auto). }
  apply G in H. clear - H. revert l H. induction a; intros l H; auto. destruct l; [destruct H|]. right. apply IHa. exact H.
Qed.

Lemma batch_step_total m b st sl : oracle_ok m T d SS -> inv T d SS QT st -> calm st ->
  exists st' new sl', ns_batch_step yeq solve prm m SS (length Xs) b st sl = Ok (st', new, sl') /\ calm st'.
Proof.
  intros HO HI HA. destruct HI as [I1 [I2 I3]]. unfold ns_batch_step.
  destruct (mapM_total (fun p => find_constraint m (fst p) (snd p) (st_w st) None true) (slice (fst b) (snd b) SS)) as [cands EM].
  { intros p Hp. apply slice_incl in Hp. destruct (find_total m (st_w st) p HO I1 Hp) as [yh [_ [_ E]]]. eauto. }
  rewrite EM. cbn [bind].
  assert (CO := cands_ok T d SS m (st_w st) (fst b) (snd b) cands HO I1 EM).
  assert (ND : NoDup (map fst (combine (seq (fst b) (snd b - fst b)) cands))).
  { clear. generalize (seq_NoDup (snd b - fst b) (fst b)). generalize (seq (fst b) (snd b - fst b)). clear.
    intro l. revert cands. induction l as [|x l IH]; intros [|c cands] H; simpl; try constructor; inversion H; subst; auto.
    intro K. apply in_map_iff in K. destruct K as [[u v] [Eu K]]. simpl in Eu. subst. apply in_combine_l in K. auto. }
  destruct (gather_total (st_w st) _ (st_cons st) 0 sl I1 I2 CO ND) as [cs [nw [sl' [EG GR]]]].
  rewrite EG. cbn [bind].
  destruct (gather_inv T yeq prm SS _ _ _ _ _ _ _ _ CO I2 EG) as [G1 [G2 G3]].
  destruct (Nat.eqb_spec nw 0) as [->|NE].
  - exists (NSState (st_w st) cs (st_active st) (st_objective st)), O, sl'. split; auto. rewrite (G3 eq_refl). exact HA.
  - destruct (solve_total cs (st_active st) (length Xs)) as [w [obj [cs' [ac' [ES AL]]]]].
    + rewrite <- SS_len. symmetry. eapply Forall2_len. exact G1.
    + intro Z. assert (Z' : concat (pairs cs) = []) by (rewrite concat_pairs, Z; reflexivity).
      assert (GE : forall cands cs0 n0 s0 cs1 n1 s1, gather yeq prm (st_w st) cands cs0 n0 s0 = Ok (cs1, n1, s1) -> n1 <> n0 -> concat cs1 <> []).
      { clear. assert (AP : forall i (c : ncon Y) cs cs', append_at i c cs = Ok cs' -> concat cs' <> []).
        { induction i; intros c [|s cs] cs' H; cbn [append_at] in H; try discriminate.
          - injection H as <-. cbn [concat]. destruct s; discriminate.
          - apply bind_ok in H. destruct H as [r [E H]]. injection H as <-. cbn [concat]. intro Z. apply app_eq_nil in Z. destruct Z as [_ Z]. eapply IHi; eauto. }
        assert (KP : forall cands cs0 n0 s0 cs1 n1 s1, gather yeq prm (st_w st) cands cs0 n0 s0 = Ok (cs1, n1, s1) -> concat cs0 <> [] -> concat cs1 <> []).
        { induction cands as [|[i [[[yh dl] slack] loss]] cands IH]; intros cs0 n0 s0 cs1 n1 s1 H HN; cbn [gather] in H.
          - injection H as <- <- <-. auto.
          - destruct (negb (Qcltb 0 loss)); [eapply IH; eauto|]. apply bind_ok in H. destruct H as [old [_ H]].
            apply bind_ok in H. destruct H as [[] [_ H]]; [eapply IH; eauto|]. apply bind_ok in H. destruct H as [c1 [E H]].
            eapply IH; eauto. }
        induction cands as [|[i [[[yh dl] slack] loss]] cands IH]; intros cs0 n0 s0 cs1 n1 s1 H HN; cbn [gather] in H.
        - injection H as <- <- <-. congruence.
        - destruct (negb (Qcltb 0 loss)); [eapply IH; eauto|]. apply bind_ok in H. destruct H as [old [_ H]].
          apply bind_ok in H. destruct H as [[] [_ H]]; [eapply IH; eauto|]. apply bind_ok in H. destruct H as [c1 [E H]].
          eapply KP; eauto. }
      eapply GE in EG; auto.
    + eapply wvalid_len; eauto.
    + intro NZ. eapply grown_almost; eauto.
    + rewrite ES. cbn [bind]. eexists. eexists. eexists. split; [reflexivity|]. exact AL.
Qed.
Lemma batches_total m bs : oracle_ok m T d SS -> forall st new sl, inv T d SS QT st -> calm st ->
  exists st' new' sl', ns_batches yeq solve prm m SS (length Xs) bs st new sl = Ok (st', new', sl') /\ calm st'.
Proof.
  intro HO. induction bs as [|b bs IH]; intros st new sl HI HA; cbn [ns_batches]; [eauto 6|].
  destruct (batch_step_total m b st sl HO HI HA) as [st1 [k [sl1 [E A1]]]]. rewrite E. cbn [bind].
  destruct (batch_step_inv T d yeq solve prm SS (length Xs) feat_len label_self QT QT_ok m b st sl st1 k sl1 HO HI E) as [I1 _].
  apply IH; auto.
Qed.
Lemma loop_total bs (EB : batch_slices (ns_batch prm) (length Xs) = Ok bs) k : forall it m sw st curve primal,
  oracle_ok m T d SS -> (forall m', sw = Some m' -> oracle_ok m' T d SS) -> inv T d SS QT st -> calm st ->
  (st_objective st <> None \/ forall st' sl', ns_batches yeq solve prm m SS (length Xs) bs st 0 0 <> Ok (st', O, sl')) ->
  exists r, ns_loop yeq solve prm SS (length Xs) k it m sw st curve primal = Ok r.
Proof.
  induction k as [|k IH]; intros it m sw st curve primal HO HSW HI HA HOb; cbn [ns_loop]; [eauto|].
  rewrite EB. cbn [bind]. destruct (batches_total m bs HO st 0 0 HI HA) as [st1 [nw [sl1 [E A1]]]]. rewrite E. cbn [bind].
  destruct (batches_inv T d yeq solve prm SS (length Xs) feat_len label_self QT QT_ok m bs HO _ _ _ _ _ _ HI E) as [B1 [B2 [B3 [B4 B5]]]].
  assert (OB : st_objective st1 <> None).
  { destruct HOb as [HOb|HOb]; auto. apply B4. destruct nw; [|lia]. exfalso. eapply HOb; eauto. }
  destruct (st_objective st1) as [o|] eqn:EO; [|congruence]. cbn [bind].
  assert (OB' : st_objective st1 <> None) by congruence.
  match goal with |- context [if ?b then _ else _] => destruct b end.
  - destruct sw as [m'|]; [|eauto]. apply IH; auto. discriminate.
  - apply IH; auto.
Qed.

Lemma fit_total m sw old bs : oracle_ok m T d SS -> (forall m', sw = Some m' -> oracle_ok m' T d SS) -> sm_size m = d ->
  (0 < length Xs)%nat -> (0 < ns_max_iter prm)%nat -> batch_slices (ns_batch prm) (length Xs) = Ok bs ->
  (exists p yh, In p SS /\ sm_laug m (fst p) (snd p) (vzero d) = Ok yh /\ small <= t_loss T (snd p) yh) ->
  exists r, ns_fit yeq solve prm m sw Xs Ys None old = Ok r.
Proof.
  intros HO HSW Hd HN HI EB [p0 [yh0 [Hp0 [E0 L0]]]]. unfold ns_fit. cbn [bind].
  set (st0 := NSState (vzero (sm_size m)) (repeat [] (length Xs)) (repeat [] (length Xs)) None).
  assert (I0 : inv T d SS QT st0).
  { split; [cbn; rewrite vzero_length; auto|]. split; [|discriminate]. unfold st0. cbn [st_cons]. unfold wvalid. rewrite <- SS_len.
    generalize SS. clear. induction l; cbn [length repeat]; constructor; auto. }
  assert (A0 : calm st0) by (intro; apply aligned_repeat).
  destruct (loop_total bs EB (ns_max_iter prm) O m sw st0 [] [] HO HSW I0 A0) as [[[[[st cu] pr] re] m'] ER].
  { right. intros st' sl' ER.
    destruct (batches_inv T d yeq solve prm SS (length Xs) feat_len label_self QT QT_ok m bs HO _ _ _ _ _ _ I0 ER) as [_ [_ [B3 _]]].
    rewrite (B3 eq_refl) in ER. assert (BZ := batches_zero yeq solve prm Xs Ys m bs st0 0 0 sl' ER).
    destruct (In_nth_error _ _ Hp0) as [i Ei].
    assert (Hi : (i < length Xs)%nat). { rewrite <- SS_len. apply nth_error_Some. congruence. }
    destruct (batch_cover _ _ _ _ EB Hi) as [b [Hb Rb]]. destruct (BZ b Hb) as [cands [EM FC]].
    assert (Ep' : nth_error (slice (fst b) (snd b) SS) (i - fst b) = Some p0).
    { rewrite nth_error_slice by lia. rewrite <- Ei. f_equal. lia. }
    destruct (mapM_nth' _ _ _ _ _ EM Ep') as [c [Ec Ef]].
    destruct (find_total m (st_w st0) p0 HO ltac:(cbn; rewrite vzero_length; auto) Hp0) as [yh [E1 [L1 E2]]].
    cbn [st_w st0] in *. rewrite Hd in *. assert (yh = yh0) by congruence. subst yh0. rewrite E2 in Ef. injection Ef as <-.
    assert (Hin : In (i, (yh, vsub (t_feat T (fst p0) (snd p0)) (t_feat T (fst p0) yh), Qcmax (margin T (vzero d) (fst p0) (snd p0) yh) 0, t_loss T (snd p0) yh)) (combine (seq (fst b) (snd b - fst b)) cands)).
    { eapply nth_combine; [|exact Ec]. rewrite (nth_error_nth' _ O) by (rewrite seq_length; lia). rewrite seq_nth by lia. f_equal. lia. }
    rewrite Forall_forall in FC. specialize (FC _ Hin). cbv beta iota in FC.
    assert (S0 : 0 < small) by reflexivity.
    destruct FC as [FC|[old' [Eo FC]]]. { apply FC. eapply Qclt_le_trans; eauto. }
    cbn [st_cons st0] in Eo. assert (old' = []).
    { apply nth_error_In in Eo. apply repeat_spec in Eo. auto. }
    subst old'. unfold check_bad_constraint in FC.
    assert (MZ : margin T (vzero d) (fst p0) (snd p0) yh = t_loss T (snd p0) yh) by (unfold margin; rewrite !dot_vzero_l; ring).
    rewrite MZ in FC. destruct (Qcltb_spec (Qcmax (t_loss T (snd p0) yh) 0) small) as [K|K].
    - assert (M := Qcmax_ge_l (t_loss T (snd p0) yh) 0). clear - K M L0.
      apply (Qcle_not_lt _ _ (Qcle_trans _ _ _ L0 M)). exact K.
    - cbn [existsb check_old] in FC. destruct (ns_check prm); discriminate. }
  rewrite ER. cbn [bind]. destruct (Nat.eqb_spec (ns_max_iter prm) 0) as [Z|_]; [lia|]. cbn [negb ensure bind].
  assert (LI := loop_inv T d yeq solve prm SS (length Xs) feat_len label_self QT QT_ok _ _ m sw _ _ _ _ HO HSW I0 ER).
  destruct LI as [[J1 _] [IM [_ [J4 _]]]].
  assert (HOM : oracle_ok m' T d SS). { destruct IM as [->|IM]; auto. }
  assert (OP : exists v, objective_primal m' (st_w st) Xs Ys (ns_C prm) NSlack = Ok v).
  { unfold objective_primal. destruct (mapM_total (fun p => find_constraint m' (fst p) (snd p) (st_w st) None true) SS) as [cands EM].
    { intros p Hp. destruct (find_total m' (st_w st) p HOM J1 Hp) as [yh [_ [_ E]]]. eauto. }
    rewrite EM. cbn [bind]. assert (length cands = length SS) by (eapply mapM_length; eauto).
    destruct (Nat.eqb_spec (length cands) 0) as [Z|_]; [rewrite SS_len in *; lia|]. cbn [negb ensure bind]. eauto. }
  destruct OP as [v EV]. rewrite EV. cbn [bind]. destruct (J4 ltac:(lia)) as [o Eo]. rewrite Eo. cbn [bind]. eauto.
Qed.
End total.

(** ** no constraint in the first round *)
Section none.
Context {X Y : Type} (T : task X Y) (d : nat) (yeq : Y -> Y -> bool) (solve : qp_solver) (prm : ns_params).
Variables (Xs : list X) (Ys : list Y).
Notation SS := (combine Xs Ys).
Lemma gather_quiet w cands : forall (cs : list (list (ncon Y))) new sl, length cs = length SS ->
  Forall (fun c => let '(i, (yh, dl, slack, loss)) := c in (i < length SS)%nat /\ (~ 0 < loss \/ slack < small)) cands ->
  exists sl', gather yeq prm w cands cs new sl = Ok (cs, new, sl').
Proof.
  induction cands as [|[i [[[yh dl] slack] loss]] cands IH]; intros cs new sl L HF; cbn [gather]; [eauto|].
  apply Forall_cons_iff in HF. destruct HF as [[F0 F1] F2]. destruct (Qcltb_spec 0 loss) as [P|P]; cbn [negb]; auto.
  destruct F1 as [F1|F1]; [contradiction|]. destruct (nth_error cs i) as [old|] eqn:Eo; [|apply nth_error_None in Eo; lia]. cbn [bind].
  unfold check_bad_constraint. destruct (Qcltb_spec slack small) as [_|K]; [cbn [bind]; auto|]. exfalso. revert F1. apply Qcle_not_lt. exact K.
Qed.
Lemma fit_unbound m sw old bs : length Xs = length Ys -> oracle_ok m T d SS -> sm_size m = d ->
  batch_slices (ns_batch prm) (length Xs) = Ok bs ->
  (forall p yh, In p SS -> sm_laug m (fst p) (snd p) (vzero d) = Ok yh -> t_loss T (snd p) yh < small) ->
  ns_fit yeq solve prm m sw Xs Ys None old = Err UnboundLocalError.
Proof.
  intros HXY HO Hd EB HL. unfold ns_fit. cbn [bind].
  set (st0 := NSState (vzero (sm_size m)) (repeat [] (length Xs)) (repeat [] (length Xs)) None).
  assert (LS : length SS = length Xs) by (rewrite combine_length; lia).
  assert (QB : forall bs' new sl, exists sl', ns_batches yeq solve prm m SS (length Xs) bs' st0 new sl = Ok (st0, new, sl')).
  { induction bs' as [|b bs' IH]; intros new sl; cbn [ns_batches]; [eauto|]. unfold ns_batch_step at 1.
    destruct (mapM_total (fun p => find_constraint m (fst p) (snd p) (st_w st0) None true) (slice (fst b) (snd b) SS)) as [cands EM].
    { intros p Hp. apply slice_incl in Hp. destruct (find_total T d Xs Ys m (st_w st0) p HO ltac:(cbn; rewrite vzero_length; auto) Hp) as [yh [_ [_ E]]]. eauto. }
    rewrite EM. cbn [bind].
    destruct (gather_quiet (st_w st0) (combine (seq (fst b) (snd b - fst b)) cands) (st_cons st0) 0 sl) as [sl1 EG].
    { cbn. rewrite repeat_length. auto. }
    { apply Forall_forall. intros [i [[[yh dl] slack] loss]] Hin. assert (Hi := in_combine_l _ _ _ _ Hin). apply in_seq in Hi.
      assert (Hc := in_combine_r _ _ _ _ Hin). destruct (mapM_in _ _ _ _ EM Hc) as [p [Hp Ef]].
      assert (Hlen : (i < length SS)%nat).
      { apply In_nth_error in Hin. destruct Hin as [k Hk].
        assert (E : nth_error (combine (seq (fst b) (snd b - fst b)) cands) k = match nth_error (seq (fst b) (snd b - fst b)) k, nth_error cands k with Some u, Some v => Some (u, v) | _, _ => None end).
        { clear. generalize (seq (fst b) (snd b - fst b)). intro l. revert l cands. induction k; intros [|u l] [|v c]; simpl; auto. destruct (nth_error l k); auto. }
        rewrite E in Hk. destruct (nth_error (seq (fst b) (snd b - fst b)) k) as [u|] eqn:Eu; [|discriminate].
        destruct (nth_error cands k) as [v|] eqn:Ev; [|discriminate]. injection Hk as -> ->.
        assert (Lk : (k < snd b - fst b)%nat). { assert (Z := nth_error_Some (seq (fst b) (snd b - fst b)) k). rewrite Eu, seq_length in Z. apply Z. discriminate. }
        assert (Eu' : i = (fst b + k)%nat). { apply (nth_error_nth _ _ O) in Eu. rewrite seq_nth in Eu by auto. congruence. }
        destruct (mapM_nth_error _ _ _ _ _ EM Ev) as [s [Es _]]. rewrite nth_error_slice in Es by auto. subst i.
        apply nth_error_Some. congruence. }
      split; auto. apply slice_incl in Hp.
      destruct (find_total T d Xs Ys m (st_w st0) p HO ltac:(cbn; rewrite vzero_length; auto) Hp) as [yh' [E1 [L1 E2]]].
      cbn [st_w st0] in *. rewrite E2 in Ef. injection Ef as <- <- <- <-. rewrite Hd in *. specialize (HL p yh' Hp E1).
      assert (MZ : margin T (vzero d) (fst p) (snd p) yh' = t_loss T (snd p) yh') by (unfold margin; rewrite !dot_vzero_l; ring).
      rewrite MZ. right. unfold Qcmax. destruct (Qcleb _ _); auto. reflexivity. }
    rewrite EG. cbn [bind]. change (0 =? 0)%nat with true. cbv iota. cbn [bind].
    replace (new + 0)%nat with new by lia. apply IH. }
  destruct (ns_max_iter prm) as [|k] eqn:EMI; cbn [ns_loop].
  - reflexivity.
  - rewrite EB. cbn [bind]. destruct (QB bs O 0) as [sl' E]. rewrite E. reflexivity.
Qed.
Lemma fit_max_iter_zero m sw old : ns_max_iter prm = O -> ns_fit yeq solve prm m sw Xs Ys None old = Err UnboundLocalError.
Proof. intro H. unfold ns_fit. rewrite H. reflexivity. Qed.
End none.

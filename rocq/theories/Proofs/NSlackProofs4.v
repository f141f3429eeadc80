From Coq Require Import ZArith.
From Verif Require Import Model.NSlack Spec.NSlackSpec Proofs.Arrays Proofs.LossProofs Proofs.LearnerProofs
  Proofs.QPProofs Proofs.QPProofs2 Proofs.NSlackProofs Proofs.NSlackProofs2 Proofs.NSlackProofs3.

Lemma lsum_cons x l : lsum (x :: l) = x + lsum l.
Proof. reflexivity. Qed.
Lemma check_old_true {Y} prm w slack (old : list (ncon Y)) d : length w = d ->
  Forall (fun c => length (snd (fst c)) = d) old -> check_old prm w slack old = Ok true ->
  exists c, In c old /\ slack - Qcmax (violation w (ncon_pair c)) 0 < - small.
Proof.
  intros Hw HF H. induction old as [|c old IH]; cbn [check_old] in H; [discriminate|]. inversion HF as [|? ? F1 F2]; subst.
  apply bind_ok in H. destruct H as [v [E H]].
  assert (v = dot w (snd (fst c))).
  { unfold np_dot in E. rewrite <- F1, Nat.eqb_refl in E. cbn in E. congruence. }
  subst v. match type of H with context [Qcltb ?a ?b] => destruct (Qcltb_spec a b) as [L|L] end.
  - exists c. split; [simpl; auto|]. exact L.
  - destruct (IH F2 H) as [c' [A B]]. exists c'. split; simpl; auto.
Qed.

Lemma nth_combine {A B} (l : list A) : forall (r : list B) k a b, nth_error l k = Some a -> nth_error r k = Some b -> In (a, b) (combine l r).
Proof.
  induction l as [|x l IH]; intros [|y r] [|k] a b H1 H2; simpl in *; try discriminate.
  - left. congruence.
  - right. eapply IH; eauto.
Qed.
Lemma mapM_nth' {A B} (f : A -> res B) l : forall r k a, mapM f l = Ok r -> nth_error l k = Some a ->
  exists b, nth_error r k = Some b /\ f a = Ok b.
Proof.
  induction l as [|x l IH]; intros r k a H E; cbn [mapM] in H.
  - destruct k; discriminate.
  - apply bind_ok in H. destruct H as [v [E1 H]]. apply bind_ok in H. destruct H as [vs [E2 H]]. injection H as <-.
    destruct k; cbn [nth_error] in *; [injection E as <-; eauto|]. eapply IH; eauto.
Qed.

Section stop.
Context {X Y : Type} (T : task X Y) (d : nat) (yeq : Y -> Y -> bool) (solve : qp_solver) (prm : ns_params).
Variables (Xs : list X) (Ys : list Y).
Hypothesis HC : 0 <= ns_C prm.
Hypothesis HXY : length Xs = length Ys.
Notation S := (combine Xs Ys).

(** the bound on one sample *)
Lemma sample_bound (p : X * Y) w old yh slack loss dl h : length w = d ->
  (forall y', t_label T (fst p) y' -> length (t_feat T (fst p) y') = d) ->
  t_label T (fst p) (snd p) -> t_loss T (snd p) (snd p) = 0 ->
  (forall a b, t_label T (fst p) a -> t_label T (fst p) b -> yeq a b = true ->
    t_feat T (fst p) a = t_feat T (fst p) b /\ t_loss T (snd p) a = t_loss T (snd p) b) ->
  Forall (valid_con T p) old -> t_label T (fst p) yh -> loss = t_loss T (snd p) yh ->
  dl = vsub (t_feat T (fst p) (snd p)) (t_feat T (fst p) yh) ->
  slack = loss - dot w dl -> is_hinge T w (fst p) (snd p) slack -> h <= slack -> (loss <= 0 -> h <= 0) ->
  (~ 0 < loss \/ check_bad_constraint yeq prm w yh slack old = Ok true) ->
  h <= group_slack w (map ncon_pair old) + small.
Proof.
  intros Hw HL LS LZ YE HV Ly El Ed Es Hs Hh ZS HD.
  assert (G0 := group_slack_nonneg w (map ncon_pair old)).
  assert (S0 : 0 <= small) by discriminate.
  assert (MG : slack = margin T w (fst p) (snd p) yh).
  { rewrite margin_sub by (rewrite !HL; auto). rewrite <- Ed, <- El. exact Es. }
  assert (OLD : forall c, In c old -> violation w (ncon_pair c) = margin T w (fst p) (snd p) (fst (fst c)) /\ t_label T (fst p) (fst (fst c))).
  { intros c Hc. rewrite Forall_forall in HV. specialize (HV c Hc).
    assert (LB : t_label T (fst p) (fst (fst c))) by (destruct c as [[? ?] ?]; apply HV).
    split; auto. apply violation_margin; auto. rewrite !HL; auto. }
  destruct HD as [NL|CB].
  - assert (L0 : loss <= 0) by (apply Qcnot_lt_le; exact NL). specialize (ZS L0). qclra.
  - unfold check_bad_constraint in CB. destruct (Qcltb_spec slack small) as [L|L]. { qclra. }
    match type of CB with (if ?b then _ else _) = _ => destruct b eqn:EX end.
    + apply existsb_exists in EX. destruct EX as [c [Hc Ec]]. destruct (OLD c Hc) as [V LB].
      assert (G := group_slack_ge w (map ncon_pair old) (ncon_pair c) (in_map _ _ _ Hc)).
      destruct (YE yh (fst (fst c)) Ly LB Ec) as [F1 F2].
      assert (slack = violation w (ncon_pair c)). { rewrite V, MG. unfold margin. rewrite F1, F2. reflexivity. }
      qclra.
    + destruct (ns_check prm); [|discriminate].
      assert (HF : Forall (fun c => length (snd (fst c)) = d) old).
      { rewrite Forall_forall in *. intros c Hc. specialize (HV c Hc). destruct c as [[yc dc] lc]. destruct HV as [A [-> _]].
        cbn. rewrite vsub_length; rewrite !HL; auto. }
      destruct (check_old_true prm w slack old d Hw HF CB) as [c [Hc Lt]]. exfalso.
      destruct (OLD c Hc) as [V LB]. destruct Hs as [_ Hb].
      assert (A := Hb _ LB). rewrite <- V in A. assert (B := Hb _ LS). rewrite margin_self in B by auto.
      assert (Z : Qcmax (violation w (ncon_pair c)) 0 <= slack) by (apply Qcmax_lub; auto).
      set (q := Qcmax _ _) in *. clearbody q. qclra.
Qed.

(** [v] is at most the hinge loss, and not positive if some output without loss attains it *)
Definition under_hinge (w : list Qc) (p : X * Y) (v : Qc) : Prop :=
  forall yh, t_label T (fst p) yh -> is_hinge T w (fst p) (snd p) (margin T w (fst p) (snd p) yh) ->
    v <= margin T w (fst p) (snd p) yh /\ (t_loss T (snd p) yh <= 0 -> v <= 0).
Lemma stopped_bound_gen m bs sl (st : ns_state Y) hs : oracle_exact m T d S -> yeq_ok T yeq S ->
  length (st_w st) = d -> wvalid T S (st_cons st) ->
  batch_slices (ns_batch prm) (length Xs) = Ok bs ->
  ns_batches yeq solve prm m S (length Xs) bs st 0 0 = Ok (st, O, sl) ->
  Forall2 (under_hinge (st_w st)) S hs ->
  lsum hs <= lsum (map (group_slack (st_w st)) (pairs (st_cons st))) + ofN (length Xs) * small.
Proof.
  intros HO HY Hw HV EB ER HH.
  assert (BZ := batches_zero yeq solve prm Xs Ys m bs st 0 0 sl ER).
  assert (LS : length S = length Xs) by (rewrite combine_length; lia).
  assert (PT : forall i p old h, nth_error S i = Some p -> nth_error (st_cons st) i = Some old -> nth_error hs i = Some h ->
     h <= group_slack (st_w st) (map ncon_pair old) + small).
  { intros i p old h Ep Eo Eh.
    assert (Hi : (i < length Xs)%nat). { rewrite <- LS. apply nth_error_Some. congruence. }
    destruct (batch_cover _ _ _ _ EB Hi) as [b [Hb Rb]]. destruct (BZ b Hb) as [cands [EM FC]].
    assert (Hp : In p S) by (eapply nth_error_In; eauto).
    assert (Ep' : nth_error (slice (fst b) (snd b) S) (i - fst b) = Some p).
    { rewrite nth_error_slice by lia. rewrite <- Ep. f_equal. lia. }
    destruct (mapM_nth' _ _ _ _ _ EM Ep') as [[[[yh dl] slack] loss] [Ec Ef]].
    destruct (HO p Hp) as [HI HE]. specialize (HE _ Hw).
    destruct (find_constraint_hinge m T d (fst p) (snd p) (st_w st) HI Hw HE) as [yh' [s' [Ef' [_ [L1 [L2 [_ L3]]]]]]].
    rewrite Ef' in Ef. injection Ef as <- <- <- <-.
    assert (Hin : In (i, (yh', vsub (t_feat T (fst p) (snd p)) (t_feat T (fst p) yh'), s', t_loss T (snd p) yh')) (combine (seq (fst b) (snd b - fst b)) cands)).
    { eapply nth_combine; [|exact Ec]. rewrite (nth_error_nth' _ O) by (rewrite seq_length; lia). rewrite seq_nth by lia. f_equal. lia. }
    rewrite Forall_forall in FC. specialize (FC _ Hin). cbv beta iota in FC.
    assert (HVo : Forall (valid_con T p) old).
    { clear - HV Ep Eo. unfold wvalid in HV. revert i Ep Eo. induction HV; intros [|i] Ep Eo; simpl in *; try discriminate.
      - congruence.
      - eapply IHHV; eauto. }
    assert (HHh : under_hinge (st_w st) p h).
    { clear - HH Ep Eh. revert i Ep Eh. induction HH; intros [|i] Ep Eh; simpl in *; try discriminate.
      - injection Ep as <-. injection Eh as <-. assumption.
      - eapply IHHH; eauto. }
    assert (LF : forall y', t_label T (fst p) y' -> length (t_feat T (fst p) y') = d).
    { intros y' Hy'. destruct HI as [_ [_ HI]]. apply HI; auto. }
    assert (MG : s' = margin T (st_w st) (fst p) (snd p) yh') by (rewrite margin_sub by (rewrite !LF; auto; apply HI); exact L2).
    assert (UH : h <= s' /\ (t_loss T (snd p) yh' <= 0 -> h <= 0)).
    { rewrite MG. apply HHh; auto. rewrite <- MG. exact L3. }
    eapply sample_bound with (p := p) (yh := yh') (slack := s'); eauto.
    - apply HI.
    - apply HI.
    - apply UH.
    - apply UH.
    - destruct FC as [FC|[old' [Eo' FC]]]; auto. right. assert (old' = old) by congruence. subst old'. exact FC. }
  assert (L1 : length (st_cons st) = length S) by (symmetry; eapply Forall2_len; exact HV).
  assert (L2 : length hs = length S) by (symmetry; eapply Forall2_len; exact HH).
  rewrite <- LS.
  assert (PT' : forall i old h, nth_error (st_cons st) i = Some old -> nth_error hs i = Some h -> h <= group_slack (st_w st) (map ncon_pair old) + small).
  { intros i old h Eo Eh. destruct (nth_error S i) as [p|] eqn:Ep; [eapply PT; eauto|]. exfalso.
    apply nth_error_None in Ep. assert (i < length hs)%nat by (apply nth_error_Some; congruence). lia. }
  rewrite <- L1. revert PT'. rewrite <- L1 in L2. revert L2. generalize (st_w st) (st_cons st). clear. intros w cs. revert hs.
  induction cs as [|c cs IH]; intros hs L H; destruct hs as [|h hs]; try discriminate L.
  - discriminate.
  - cbn [length pairs map]. assert (A := H O c h eq_refl eq_refl).
    assert (B := IH hs ltac:(simpl in L; lia) (fun i => H (Datatypes.S i))).
    change (map (map ncon_pair) cs) with (pairs cs). rewrite !lsum_cons. rewrite ofN_S.
    set (u := lsum hs) in *. set (v := lsum (map (group_slack w) (pairs cs))) in *. set (g := group_slack w (map ncon_pair c)) in *.
    replace ((1 + ofN (length cs)) * small) with (ofN (length cs) * small + small) by ring.
    set (z := ofN (length cs) * small) in *. clearbody u v g z. qclra.
Qed.

Lemma hinge_under w hs : zero_loss_same T S -> (forall p, In p S -> t_label T (fst p) (snd p)) -> hinges T w S hs -> Forall2 (under_hinge w) S hs.
Proof.
  intros HZ HS HH. assert (HZ' : forall p, In p S -> forall y', t_label T (fst p) y' -> t_loss T (snd p) y' <= 0 -> t_feat T (fst p) y' = t_feat T (fst p) (snd p)).
  { intros p Hp y'. apply HZ; auto. }
  clear HZ. revert HZ' HS. unfold hinges in HH. induction HH as [|p h l hs Hh HH IH]; intros HZ HS; constructor.
  - intros yh Ly Hy. assert (h = margin T w (fst p) (snd p) yh) by (eapply is_hinge_unique; eauto). subst h. split; [apply Qcle_refl|].
    intro L0. unfold margin. rewrite (HZ p (or_introl eq_refl) yh Ly L0). qclra.
  - apply IH; intros; [apply HZ|apply HS]; simpl; auto.
Qed.

(** Near-optimality of a finished fit, started from scratch or from a valid working set *)
Lemma fit_near_gen m sw cons old st curve primal : qp_exact solve -> ns_neg prm = None -> sm_size m = d ->
  oracle_exact m T d S -> (forall m', sw = Some m' -> oracle_exact m' T d S) -> yeq_ok T yeq S ->
  match cons with None => True | Some cs => wvalid T S cs end ->
  ns_fit yeq solve prm m sw Xs Ys cons old = Ok (st, curve, primal, NoNewConstraint) ->
  forall hs w' hs', Forall2 (under_hinge (st_w st)) S hs -> length w' = d -> hinges T w' S hs' ->
  primal_value (ns_C prm) (st_w st) hs <= primal_value (ns_C prm) w' hs' +
     ns_C prm * (ofN (length Xs) * small) + qp_reg * (ofN (length Xs) * (ns_C prm * ns_C prm)).
Proof.
  intros HS HN Hd HO HOS HY HCS H hs w' hs' Hh Hw' Hh'. unfold ns_fit in H.
  apply bind_ok in H. destruct H as [[[st1 cu1] pr1] [E0 H]].
  apply bind_ok in H. destruct H as [[[[[st' cu] pr] re] m'] [EL H]].
  apply bind_ok in H. destruct H as [u [EN H]]. apply bind_ok in H. destruct H as [p [EP H]].
  apply bind_ok in H. destruct H as [obj [EO H]]. injection H as <- <- <- ->.
  assert (HO' := exact_is_ok _ _ _ _ HO).
  assert (HOS' : forall m', sw = Some m' -> oracle_ok m' T d S) by (intros; apply exact_is_ok; auto).
  assert (HF := feat_len_ok T d m Xs Ys HO'). assert (HLs := label_self_ok T d m Xs Ys HO').
  set (Q := fun (w : list Qc) (_ : Qc) groups => near_opt d (ns_C prm) (qp_reg * (ofN (length Xs) * (ns_C prm * ns_C prm))) w groups).
  assert (HQ : forall (cs : list (list (ncon Y))) active w obj cs' active', Forall (fun c => length (fst c) = d) (concat (pairs cs)) ->
     solve_n_slack_qp solve prm (length Xs) cs active = Ok (w, obj, cs', active') ->
     length w = d /\ Q w obj (pairs cs) /\ Forall2 (fun s s' => incl s' s) cs cs').
  { intros cs active w o cs' active' HFc E. destruct (solve_sound solve prm _ d _ _ _ _ _ _ (qp_exact_sound _ HS) HC HFc E) as [A [B [C0 D]]].
    split; auto. split; auto. exact (solve_exact solve prm _ d _ _ _ _ _ _ HS HC HN HFc E). }
  assert (I0 : inv T d S Q st1).
  { destruct cons as [cs|]; [|injection E0 as <- _ _; exact (start_inv T d m Xs Ys HXY Hd Q)].
    destruct old as [o|]; [|discriminate]. apply bind_ok in E0. destruct E0 as [[[[w1 ob1] cs1] ac1] [E1 E0]]. injection E0 as <- _ _.
    assert (HFc := wvalid_len T d S HF (fun p Hp => proj1 (HLs p Hp)) cs HCS).
    destruct (HQ _ _ _ _ _ _ HFc E1) as [A1 [A2 A3]]. split; [exact A1|]. split.
    - cbn [st_cons]. exact (wvalid_incl T S cs cs1 HCS A3).
    - cbn [st_objective st_cons st_w]. intros o' Eo. injection Eo as <-. exists cs. split; [exact HCS|]. split; [exact A3|exact A2]. }
  assert (LI := loop_inv T d yeq solve prm S (length Xs) HF (fun p Hp => proj1 (HLs p Hp)) Q HQ
                  (ns_max_iter prm) O m sw st1 cu1 pr1 _ HO' HOS' I0 EL).
  destruct LI as [[I1 [I2 I3]] [IM [_ [_ [_ I5]]]]]. destruct (I5 eq_refl) as [bs [sl [st0 [_ [_ [_ [EB [ER ->]]]]]]]].
  assert (HOM : oracle_exact m' T d S). { destruct IM as [->|IM]; auto. }
  assert (SO : st_objective st0 = Some obj) by (destruct (st_objective st0); congruence).
  destruct (I3 obj SO) as [full [F1 [F2 F3]]].
  assert (SB := stopped_bound_gen m' bs sl st0 hs HOM HY I1 I2 EB ER Hh).
  assert (CV := hinges_cover T d w' S full hs' HF HLs F1 Hh').
  specialize (F3 w' hs' Hw' CV). unfold primal_value.
  assert (GS : lsum (map (group_slack (st_w st0)) (pairs (st_cons st0))) <= lsum (map (group_slack (st_w st0)) (pairs full))).
  { generalize (st_w st0). clear - F2. intro w. induction F2 as [|a b l l' Hab F2 IH]; [apply Qcle_refl|]. cbn [pairs map]. rewrite !lsum_cons.
    apply Qcplus_le_compat; auto. apply group_slack_lub. apply group_slack_nonneg. intros c Hc. apply in_map_iff in Hc.
    destruct Hc as [k [<- Hk]]. apply group_slack_ge. apply in_map. auto. }
  assert (CC : ns_C prm * lsum hs <= ns_C prm * lsum (map (group_slack (st_w st0)) (pairs full)) + ns_C prm * (ofN (length Xs) * small)).
  { replace (ns_C prm * lsum (map (group_slack (st_w st0)) (pairs full)) + ns_C prm * (ofN (length Xs) * small))
      with (ns_C prm * (lsum (map (group_slack (st_w st0)) (pairs full)) + ofN (length Xs) * small)) by ring.
    rewrite !(Qcmult_comm (ns_C prm)). apply Qcmult_le_compat_r; auto.
    eapply Qcle_trans; [exact SB|]. apply Qcplus_le_compat; auto. apply Qcle_refl. }
  set (a := ns_C prm * lsum hs) in *. set (b := ns_C prm * lsum (map (group_slack (st_w st0)) (pairs full))) in *.
  set (c := ns_C prm * (ofN (length Xs) * small)) in *. set (e := qp_reg * (ofN (length Xs) * (ns_C prm * ns_C prm))) in *.
  set (f := ns_C prm * lsum hs') in *. set (n1 := normsq (st_w st0) / (1 + 1)) in *. set (n2 := normsq w' / (1 + 1)) in *.
  clearbody a b c e f n1 n2. qclra.
Qed.

Lemma fit_near_optimal m sw old st curve primal : qp_exact solve -> ns_neg prm = None -> sm_size m = d ->
  oracle_exact m T d S -> (forall m', sw = Some m' -> oracle_exact m' T d S) -> yeq_ok T yeq S -> zero_loss_same T S ->
  ns_fit yeq solve prm m sw Xs Ys None old = Ok (st, curve, primal, NoNewConstraint) ->
  forall hs w' hs', hinges T (st_w st) S hs -> length w' = d -> hinges T w' S hs' ->
  primal_value (ns_C prm) (st_w st) hs <= primal_value (ns_C prm) w' hs' +
     ns_C prm * (ofN (length Xs) * small) + qp_reg * (ofN (length Xs) * (ns_C prm * ns_C prm)).
Proof.
  intros HS HN Hd HO HOS HY HZ H hs w' hs' Hh Hw' Hh'.
  apply (fit_near_gen m sw None old st curve primal HS HN Hd HO HOS HY I H hs w' hs'); auto.
  apply hinge_under; auto. intros p Hp. apply (label_self_ok T d m Xs Ys (exact_is_ok _ _ _ _ HO) p Hp).
Qed.
End stop.

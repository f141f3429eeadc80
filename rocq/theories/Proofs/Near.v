From Coq Require Import ZArith.
From Verif Require Import Model.NSlack Spec.NSlackSpec Proofs.Arrays Proofs.LossProofs Proofs.LearnerProofs
  Proofs.QPProofs Proofs.QPProofs2 Proofs.NSlackProofs Proofs.NSlackProofs2 Proofs.NSlackProofs3 Proofs.NSlackProofs4 Spec.NearSpec.

Lemma near_is_ok {X Y} eps (m : smodel X Y) T d S : oracle_near eps m T d S -> oracle_ok m T d S.
Proof. intros H p Hp. destruct (H p Hp) as [A B]. split; auto. intros w Hw. destruct (B w Hw) as [yh [E [L _]]]. eauto. Qed.
Lemma margin_score {X Y} (T : task X Y) w x y a b e : dot w (t_feat T x a) + t_loss T y a <= dot w (t_feat T x b) + t_loss T y b + e <-> margin T w x y a <= margin T w x y b + e.
Proof. unfold margin. split; intro H; qclra. Qed.
Lemma exact_near {X Y} (m : smodel X Y) T d S : oracle_exact m T d S <-> oracle_near 0 m T d S.
Proof.
  split; intros H p Hp; destruct (H p Hp) as [A B]; split; auto; intros w Hw; destruct (B w Hw) as [yh [E [L M]]]; exists yh.
  - split; auto. split; auto. intros y' Hy'. apply margin_score. specialize (M y' Hy'). qclra.
  - split; auto. split; auto. intros y' Hy'. specialize (M y' Hy'). apply margin_score in M. qclra.
Qed.
Lemma near_more {X Y} eps eps' (m : smodel X Y) T d S : eps <= eps' -> oracle_near eps m T d S -> oracle_near eps' m T d S.
Proof.
  intros HE H p Hp. destruct (H p Hp) as [A B]. split; auto. intros w Hw. destruct (B w Hw) as [yh [E [L M]]]. exists yh. split; auto. split; auto.
  intros y' Hy'. specialize (M y' Hy'). qclra.
Qed.
Lemma find_constraint_near {X Y} eps (m : smodel X Y) T d x y w yh :
  implements m T d x y -> length w = d -> sm_laug m x y w = Ok yh -> near_worst T eps w x y yh ->
  exists s, find_constraint m x y w None true = Ok (yh, vsub (t_feat T x y) (t_feat T x yh), s, t_loss T y yh) /\
    s = Qcmax (margin T w x y yh) 0.
Proof. intros HI Hw E [L M]. eexists. split; [apply (find_constraint_value m T d x y w None yh); auto|reflexivity]. Qed.

Section near.
Context {X Y : Type} (T : task X Y) (d : nat) (yeq : Y -> Y -> bool) (solve : qp_solver) (prm : ns_params) (eps : Qc).
Variables (Xs : list X) (Ys : list Y).
Hypothesis HC : 0 <= ns_C prm.
Hypothesis HXY : length Xs = length Ys.
Hypothesis HE : 0 <= eps.
Notation S := (combine Xs Ys).

(** the bound on one sample *)
Lemma sample_near (p : X * Y) w old yh slack h : length w = d ->
  (forall y', t_label T (fst p) y' -> length (t_feat T (fst p) y') = d) ->
  (forall a b, t_label T (fst p) a -> t_label T (fst p) b -> yeq a b = true ->
    t_feat T (fst p) a = t_feat T (fst p) b /\ t_loss T (snd p) a = t_loss T (snd p) b) ->
  Forall (valid_con T p) old -> t_label T (fst p) yh -> t_label T (fst p) (snd p) ->
  slack = Qcmax (margin T w (fst p) (snd p) yh) 0 -> h <= slack + eps -> (t_loss T (snd p) yh <= 0 -> h <= eps) ->
  (~ 0 < t_loss T (snd p) yh \/ check_bad_constraint yeq prm w yh slack old = Ok true) ->
  h <= group_slack w (map ncon_pair old) + (small + eps).
Proof.
  intros Hw HL YE HV Ly Ls Es Hh ZS HD.
  assert (G0 := group_slack_nonneg w (map ncon_pair old)).
  assert (S0 : 0 <= small) by discriminate.
  assert (OLD : forall c, In c old -> violation w (ncon_pair c) = margin T w (fst p) (snd p) (fst (fst c)) /\ t_label T (fst p) (fst (fst c))).
  { intros c Hc. rewrite Forall_forall in HV. specialize (HV c Hc).
    assert (LB : t_label T (fst p) (fst (fst c))) by (destruct c as [[? ?] ?]; apply HV).
    split; auto. apply violation_margin; auto. rewrite !HL; auto. }
  destruct HD as [NL|CB].
  - assert (L0 : t_loss T (snd p) yh <= 0) by (apply Qcnot_lt_le; exact NL). specialize (ZS L0). qclra.
  - unfold check_bad_constraint in CB. destruct (Qcltb_spec slack small) as [L|L]. { qclra. }
    match type of CB with (if ?b then _ else _) = _ => destruct b eqn:EX end.
    + apply existsb_exists in EX. destruct EX as [c [Hc Ec]]. destruct (OLD c Hc) as [V LB].
      assert (G := group_slack_ge w (map ncon_pair old) (ncon_pair c) (in_map _ _ _ Hc)).
      destruct (YE yh (fst (fst c)) Ly LB Ec) as [F1 F2].
      assert (M1 : margin T w (fst p) (snd p) yh = violation w (ncon_pair c)). { rewrite V. unfold margin. rewrite F1, F2. reflexivity. }
      assert (slack <= group_slack w (map ncon_pair old)). { rewrite Es. apply Qcmax_lub; auto. rewrite M1. exact G. }
      qclra.
    + destruct (ns_check prm); [|discriminate].
      assert (HF : Forall (fun c => length (snd (fst c)) = d) old).
      { rewrite Forall_forall in *. intros c Hc. specialize (HV c Hc). destruct c as [[yc dc] lc]. destruct HV as [A [-> _]].
        cbn. rewrite vsub_length; rewrite !HL; auto. }
      destruct (check_old_true prm w slack old d Hw HF CB) as [c [Hc Lt]].
      assert (G := group_slack_ge w (map ncon_pair old) (ncon_pair c) (in_map _ _ _ Hc)).
      assert (Z : Qcmax (violation w (ncon_pair c)) 0 <= group_slack w (map ncon_pair old)) by (apply Qcmax_lub; auto).
      set (q := Qcmax _ _) in *. clearbody q. qclra.
Qed.

Lemma stopped_near m bs sl (st : ns_state Y) hs : oracle_near eps m T d S -> yeq_ok T yeq S -> zero_loss_same T S ->
  length (st_w st) = d -> wvalid T S (st_cons st) ->
  batch_slices (ns_batch prm) (length Xs) = Ok bs ->
  ns_batches yeq solve prm m S (length Xs) bs st 0 0 = Ok (st, O, sl) ->
  hinges T (st_w st) S hs ->
  lsum hs <= lsum (map (group_slack (st_w st)) (pairs (st_cons st))) + ofN (length Xs) * (small + eps).
Proof.
  intros HO HY HZ Hw HV EB ER HH.
  assert (BZ := batches_zero yeq solve prm Xs Ys m bs st 0 0 sl ER).
  assert (LS : length S = length Xs) by (rewrite combine_length; lia).
  assert (PT : forall i p old h, nth_error S i = Some p -> nth_error (st_cons st) i = Some old -> nth_error hs i = Some h ->
     h <= group_slack (st_w st) (map ncon_pair old) + (small + eps)).
  { intros i p old h Ep Eo Eh.
    assert (Hi : (i < length Xs)%nat). { rewrite <- LS. apply nth_error_Some. congruence. }
    destruct (batch_cover _ _ _ _ EB Hi) as [b [Hb Rb]]. destruct (BZ b Hb) as [cands [EM FC]].
    assert (Hp : In p S) by (eapply nth_error_In; eauto).
    assert (Ep' : nth_error (slice (fst b) (snd b) S) (i - fst b) = Some p).
    { rewrite nth_error_slice by lia. rewrite <- Ep. f_equal. lia. }
    destruct (mapM_nth' _ _ _ _ _ EM Ep') as [[[[yh dl] slack] loss] [Ec Ef]].
    destruct (HO p Hp) as [HI HM]. destruct (HM _ Hw) as [yh' [EL NW]].
    destruct (find_constraint_near eps m T d (fst p) (snd p) (st_w st) yh' HI Hw EL NW) as [s' [Ef' Es']].
    rewrite Ef' in Ef. injection Ef as <- <- <- <-.
    assert (Hin : In (i, (yh', vsub (t_feat T (fst p) (snd p)) (t_feat T (fst p) yh'), s', t_loss T (snd p) yh')) (combine (seq (fst b) (snd b - fst b)) cands)).
    { eapply nth_combine; [|exact Ec]. rewrite (nth_error_nth' _ O) by (rewrite seq_length; lia). rewrite seq_nth by lia. f_equal. lia. }
    rewrite Forall_forall in FC. specialize (FC _ Hin). cbv beta iota in FC.
    assert (HVo : Forall (valid_con T p) old).
    { clear - HV Ep Eo. unfold wvalid in HV. revert i Ep Eo. induction HV; intros [|i] Ep Eo; simpl in *; try discriminate.
      - congruence.
      - eapply IHHV; eauto. }
    assert (HHh : is_hinge T (st_w st) (fst p) (snd p) h).
    { clear - HH Ep Eh. unfold hinges in HH. revert i Ep Eh. induction HH; intros [|i] Ep Eh; simpl in *; try discriminate.
      - injection Ep as <-. injection Eh as <-. assumption.
      - eapply IHHH; eauto. }
    assert (LF : forall y', t_label T (fst p) y' -> length (t_feat T (fst p) y') = d).
    { intros y' Hy'. destruct HI as [_ [_ HI]]. apply HI; auto. }
    destruct NW as [Ly NW]. destruct HHh as [[y1 [L1 M1]] _]. specialize (NW y1 L1). rewrite M1 in NW.
    eapply sample_near with (p := p) (yh := yh') (slack := s'); eauto.
    - apply HI.
    - assert (B := Qcmax_ge_l (margin T (st_w st) (fst p) (snd p) yh') 0). rewrite <- Es' in B. qclra.
    - intro L0. assert (MZ : margin T (st_w st) (fst p) (snd p) yh' <= 0). { unfold margin. rewrite (HZ p yh' Hp Ly L0). qclra. } qclra.
    - destruct FC as [FC|[old' [Eo' FC]]]; auto. right. assert (old' = old) by congruence. subst old'. exact FC. }
  assert (L1 : length (st_cons st) = length S) by (symmetry; eapply Forall2_len; exact HV).
  assert (L2 : length hs = length S) by (symmetry; eapply Forall2_len; exact HH).
  rewrite <- LS.
  assert (PT' : forall i old h, nth_error (st_cons st) i = Some old -> nth_error hs i = Some h -> h <= group_slack (st_w st) (map ncon_pair old) + (small + eps)).
  { intros i old h Eo Eh. destruct (nth_error S i) as [p|] eqn:Ep; [eapply PT; eauto|]. exfalso.
    apply nth_error_None in Ep. assert (i < length hs)%nat by (apply nth_error_Some; congruence). lia. }
  rewrite <- L1. revert PT'. rewrite <- L1 in L2. revert L2. generalize (st_w st) (st_cons st) (small + eps). clear. intros w cs e. revert hs.
  induction cs as [|c cs IH]; intros hs L H; destruct hs as [|h hs]; try discriminate L.
  - unfold pairs. cbn [map length lsum]. rewrite ofN_0. replace (0 + 0 * e) with 0 by ring. apply Qcle_refl.
  - cbn [length pairs map]. assert (A := H O c h eq_refl eq_refl).
    assert (B := IH hs ltac:(simpl in L; lia) (fun i => H (Datatypes.S i))).
    change (map (map ncon_pair) cs) with (pairs cs). rewrite !lsum_cons. rewrite ofN_S.
    set (u := lsum hs) in *. set (v := lsum (map (group_slack w) (pairs cs))) in *. set (g := group_slack w (map ncon_pair c)) in *.
    replace ((1 + ofN (length cs)) * e) with (ofN (length cs) * e + e) by ring.
    set (z := ofN (length cs) * e) in *. clearbody u v g z. qclra.
Qed.

(** the oracle in use when training stops by itself is the one switched to *)
Lemma ns_loop_final samples k : forall it (m : smodel X Y) sw st curve primal st' curve' primal' reason m',
  ns_loop yeq solve prm samples (length Xs) k it m sw st curve primal = Ok (st', curve', primal', reason, m') ->
  reason <> MaxIter -> m' = match sw with Some b => b | None => m end.
Proof.
  induction k as [|k IH]; intros it m sw st curve primal st' curve' primal' reason m' H HR; cbn [ns_loop] in H.
  - injection H as _ _ _ <- _. congruence.
  - apply bind_ok in H. destruct H as [bs [EB H]]. apply bind_ok in H. destruct H as [[[st1 new] sl] [EQ H]].
    apply bind_ok in H. destruct H as [obj [EO H]]. destruct ((new =? 0)%nat || _) eqn:STOP.
    + destruct sw as [b|].
      * apply IH in H; auto.
      * injection H as _ _ _ _ <-. reflexivity.
    + apply IH in H; auto.
Qed.
Lemma n_slack_final m sw old st curve primal : qp_exact solve -> ns_neg prm = None -> sm_size m = d ->
  oracle_ok m T d S -> (forall m', sw = Some m' -> oracle_ok m' T d S) -> oracle_near eps (match sw with Some b => b | None => m end) T d S ->
  yeq_ok T yeq S -> zero_loss_same T S ->
  ns_fit yeq solve prm m sw Xs Ys None old = Ok (st, curve, primal, NoNewConstraint) ->
  forall hs w' hs', hinges T (st_w st) S hs -> length w' = d -> hinges T w' S hs' ->
  primal_value (ns_C prm) (st_w st) hs <= primal_value (ns_C prm) w' hs' +
     ns_C prm * (ofN (length Xs) * (small + eps)) + qp_reg * (ofN (length Xs) * (ns_C prm * ns_C prm)).
Proof.
  intros HS HN Hd HO' HOS' HFin HY HZ H hs w' hs' Hh Hw' Hh'. unfold ns_fit in H.
  apply bind_ok in H. destruct H as [[[st1 cu1] pr1] [E0 H]].
  apply bind_ok in H. destruct H as [[[[[st' cu] pr] re] m'] [EL H]].
  apply bind_ok in H. destruct H as [u [EN H]]. apply bind_ok in H. destruct H as [p [EP H]].
  apply bind_ok in H. destruct H as [obj [EO H]]. injection H as <- <- <- ->.
  assert (HF := feat_len_ok T d m Xs Ys HO'). assert (HLs := label_self_ok T d m Xs Ys HO').
  set (Q := fun (w : list Qc) (_ : Qc) groups => near_opt d (ns_C prm) (qp_reg * (ofN (length Xs) * (ns_C prm * ns_C prm))) w groups).
  assert (HQ : forall (cs : list (list (ncon Y))) active w obj cs' active', Forall (fun c => length (fst c) = d) (concat (pairs cs)) ->
     solve_n_slack_qp solve prm (length Xs) cs active = Ok (w, obj, cs', active') ->
     length w = d /\ Q w obj (pairs cs) /\ Forall2 (fun s s' => incl s' s) cs cs').
  { intros cs active w o cs' active' HFc E. destruct (solve_sound solve prm _ d _ _ _ _ _ _ (qp_exact_sound _ HS) HC HFc E) as [A [B [C0 D]]].
    split; auto. split; auto. exact (solve_exact solve prm _ d _ _ _ _ _ _ HS HC HN HFc E). }
  assert (I0 : inv T d S Q st1) by (injection E0 as <- _ _; exact (start_inv T d m Xs Ys HXY Hd Q)).
  assert (LI := loop_inv T d yeq solve prm S (length Xs) HF (fun p Hp => proj1 (HLs p Hp)) Q HQ
                  (ns_max_iter prm) O m sw st1 cu1 pr1 _ HO' HOS' I0 EL).
  destruct LI as [[I1 [I2 I3]] [IM [_ [_ [_ I5]]]]]. destruct (I5 eq_refl) as [bs [sl [st0 [_ [_ [_ [EB [ER ->]]]]]]]].
  assert (HOM : oracle_near eps m' T d S). { rewrite (ns_loop_final _ _ _ _ _ _ _ _ _ _ _ _ _ EL ltac:(discriminate)). exact HFin. }
  assert (SO : st_objective st0 = Some obj) by (destruct (st_objective st0); congruence).
  destruct (I3 obj SO) as [full [F1 [F2 F3]]].
  assert (SB := stopped_near m' bs sl st0 hs HOM HY HZ I1 I2 EB ER Hh).
  assert (CV := hinges_cover T d w' S full hs' HF HLs F1 Hh').
  specialize (F3 w' hs' Hw' CV). unfold primal_value.
  assert (GS : lsum (map (group_slack (st_w st0)) (pairs (st_cons st0))) <= lsum (map (group_slack (st_w st0)) (pairs full))).
  { generalize (st_w st0). clear - F2. intro w. induction F2 as [|a b l l' Hab F2 IH]; [apply Qcle_refl|]. cbn [pairs map]. rewrite !lsum_cons.
    apply Qcplus_le_compat; auto. apply group_slack_lub. apply group_slack_nonneg. intros c Hc. apply in_map_iff in Hc.
    destruct Hc as [k [<- Hk]]. apply group_slack_ge. apply in_map. auto. }
  assert (CC : ns_C prm * lsum hs <= ns_C prm * lsum (map (group_slack (st_w st0)) (pairs full)) + ns_C prm * (ofN (length Xs) * (small + eps))).
  { rewrite <- Qcmult_plus_distr_r.
    rewrite !(Qcmult_comm (ns_C prm)). apply Qcmult_le_compat_r; auto.
    eapply Qcle_trans; [exact SB|]. apply Qcplus_le_compat; auto. apply Qcle_refl. }
  set (a := ns_C prm * lsum hs) in *. set (b := ns_C prm * lsum (map (group_slack (st_w st0)) (pairs full))) in *.
  set (c := ns_C prm * (ofN (length Xs) * (small + eps))) in *. set (e := qp_reg * (ofN (length Xs) * (ns_C prm * ns_C prm))) in *.
  set (f := ns_C prm * lsum hs') in *. set (n1 := normsq (st_w st0) / (1 + 1)) in *. set (n2 := normsq w' / (1 + 1)) in *.
  clearbody a b c e f n1 n2. qclra.
Qed.
Lemma n_slack_near m sw old st curve primal : qp_exact solve -> ns_neg prm = None -> sm_size m = d ->
  oracle_near eps m T d S -> (forall m', sw = Some m' -> oracle_near eps m' T d S) -> yeq_ok T yeq S -> zero_loss_same T S ->
  ns_fit yeq solve prm m sw Xs Ys None old = Ok (st, curve, primal, NoNewConstraint) ->
  forall hs w' hs', hinges T (st_w st) S hs -> length w' = d -> hinges T w' S hs' ->
  primal_value (ns_C prm) (st_w st) hs <= primal_value (ns_C prm) w' hs' +
     ns_C prm * (ofN (length Xs) * (small + eps)) + qp_reg * (ofN (length Xs) * (ns_C prm * ns_C prm)).
Proof.
  intros HS HN Hd HO HOS. apply n_slack_final; auto.
  - eapply near_is_ok; eauto.
  - intros m' E. eapply near_is_ok; eauto.
  - destruct sw; auto.
Qed.
End near.

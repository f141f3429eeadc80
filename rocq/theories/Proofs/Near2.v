From Verif Require Import Model.OneSlack Spec.OneSlackSpec Proofs.Arrays Proofs.LossProofs Proofs.MaxProdProofs Proofs.CRFProofs Proofs.LearnerProofs
  Proofs.QPProofs Proofs.QPProofs2 Proofs.NSlackProofs Proofs.NSlackProofs2 Proofs.NSlackProofs4 Proofs.NSlackProofs5 Proofs.OneSlackQP Proofs.OneSlackPrune
  Proofs.OneSlackCache Proofs.OneSlackProofs Proofs.OneSlackProofs2 Model.FrankWolfe Spec.FrankWolfeSpec Proofs.FrankWolfeProofs Proofs.FrankWolfeProofs2
  Proofs.FrankWolfeProofs3 Proofs.FrankWolfeProofs4 Spec.NearSpec Proofs.Near.

Lemma hinges_near {X Y} (T : task X Y) eps w S : forall Yh hs,
  Forall2 (fun p yh => near_worst T eps w (fst p) (snd p) yh) S Yh -> hinges T w S hs ->
  lsum hs <= lsum (map (fun q => margin T w (fst (fst q)) (snd (fst q)) (snd q)) (combine S Yh)) + ofN (length S) * eps.
Proof.
  induction S as [|p S IH]; intros Yh hs HF HH; inversion HF; subst; inversion HH; subst.
  - cbn [combine map lsum length]. rewrite ofN_0. replace (0 + 0 * eps) with 0 by ring. apply Qcle_refl.
  - match goal with A : Forall2 _ S ?l', B : Forall2 _ S ?h' |- _ => specialize (IH l' h' A B) end.
    match goal with A : is_hinge T w _ _ ?h |- _ => destruct A as [[y' [L M]] _] end.
    match goal with A : near_worst T eps w _ _ ?yh |- _ => destruct A as [_ N]; specialize (N y' L) end.
    cbn [combine map length fst snd]. rewrite ofN_S. rewrite !lsum_cons. rewrite M in N.
    set (u := lsum (map _ _)) in *. set (v := lsum l'0) in *. clearbody u v. replace ((1 + ofN (length S)) * eps) with (ofN (length S) * eps + eps) by ring.
    set (z := ofN (length S) * eps) in *. clearbody z. qclra.
Qed.

(** hinge losses are not negative *)
Lemma hinge_nonneg {X Y} (m : smodel X Y) T d w p h : implements m T d (fst p) (snd p) -> is_hinge T w (fst p) (snd p) h -> 0 <= h.
Proof. intros [L [Z _]] [_ B]. rewrite <- (margin_self T w (fst p) (snd p) Z). apply B. exact L. Qed.

Section objective.
Context {X Y : Type} (T : task X Y) (d : nat).
Lemma slacks_near eps (m : smodel X Y) w : length w = d -> 0 <= eps -> forall S hs, oracle_near eps m T d S -> hinges T w S hs ->
  exists cs, mapM (fun p => find_constraint m (fst p) (snd p) w None true) S = Ok cs /\ length cs = length S /\
    lsum (map (fun c => snd (fst c)) cs) <= lsum hs /\ lsum hs <= lsum (map (fun c => snd (fst c)) cs) + ofN (length S) * eps.
Proof.
  intros Hw HE. induction S as [|p S IH]; intros hs HO HH; inversion HH; subst.
  - exists []. cbn [mapM map lsum length]. rewrite ofN_0. replace (0 + 0 * eps) with 0 by ring. split; auto. split; auto. split; apply Qcle_refl.
  - destruct (IH l' (fun q Hq => HO q (or_intror Hq)) H3) as [cs [E1 [E2 [E3 E4]]]].
    destruct (HO p (or_introl eq_refl)) as [HI HM]. destruct (HM w eq_refl) as [yh [EL NW]].
    destruct (find_constraint_near eps m T _ (fst p) (snd p) w yh HI eq_refl EL NW) as [s [EF Es]].
    assert (HN := hinge_nonneg m T _ w p y HI H1). destruct H1 as [[y1 [L1 M1]] B1]. destruct NW as [Ly NW]. specialize (NW y1 L1). rewrite M1 in NW. specialize (B1 yh Ly).
    assert (S1 : s <= y) by (rewrite Es; apply Qcmax_lub; auto). assert (S2 := Qcmax_ge_l (margin T w (fst p) (snd p) yh) 0). rewrite <- Es in S2.
    eexists. cbn [mapM]. rewrite EF. cbn [bind]. rewrite E1. cbn [bind]. split; [reflexivity|]. cbn [length map fst snd]. split; [congruence|].
    rewrite ofN_S, !lsum_cons. set (u := lsum (map _ cs)) in *. set (v := lsum l') in *. clearbody u v. clear EF Es.
    replace ((1 + ofN (length S)) * eps) with (ofN (length S) * eps + eps) by ring. set (z := ofN (length S) * eps) in *. clearbody z. split; qclra.
Qed.
Lemma objective_near eps (m : smodel X Y) w Xs Ys C v hs : length Xs = length Ys -> Xs <> [] -> length w = d -> 0 <= eps -> 0 <= C ->
  oracle_near eps m T d (combine Xs Ys) -> hinges T w (combine Xs Ys) hs ->
  exists r, objective_primal m w Xs Ys C v = Ok r /\ r <= primal_value C w hs /\ primal_value C w hs <= r + C * ofN (length Xs) * eps.
Proof.
  intros HL HX Hw HE HC HO HH. destruct (slacks_near eps m w Hw HE _ _ HO HH) as [cs [E [L [A B]]]].
  assert (P := slacks_nonneg m w _ cs E).
  assert (V : objective_primal m w Xs Ys C v = objective_primal m w Xs Ys C OneSlack).
  { destruct v; auto. apply objective_variants. }
  rewrite V. unfold objective_primal. rewrite E. cbn [bind].
  assert (length cs <> O). { rewrite L, combine_length. destruct Xs, Ys; simpl in *; congruence || lia. }
  destruct (Nat.eqb_spec (length cs) 0); [contradiction|]. cbn [negb ensure bind]. eexists. split; [reflexivity|].
  assert (Q := lsum_nonneg' _ P).
  replace (Qcmax (lsum (map (fun c => snd (fst c)) cs)) 0) with (lsum (map (fun c => snd (fst c)) cs)).
  2:{ unfold Qcmax. destruct (Qcleb_spec (lsum (map (fun c => snd (fst c)) cs)) 0) as [Z|Z]; auto. apply Qcle_antisym; auto. }
  unfold primal_value. assert (LS : length (combine Xs Ys) = length Xs) by (rewrite combine_length, <- HL; apply Nat.min_id). rewrite LS in B.
  set (u := lsum (map _ cs)) in *. set (h := lsum hs) in *. clearbody u h.
  assert (A' := Qcmult_le_compat_r _ _ C A HC). assert (B' := Qcmult_le_compat_r _ _ C B HC).
  replace ((u + ofN (length Xs) * eps) * C) with (u * C + C * ofN (length Xs) * eps) in B' by ring. rewrite (Qcmult_comm h C) in *.
  set (x := u * C) in *. set (y := C * h) in *. set (z := C * ofN (length Xs) * eps) in *. set (nn := normsq w / (1 + 1)). clearbody x y z nn. split; qclra.
Qed.
End objective.

Section one.
Context {X Y : Type} (T : task X Y) (d : nat) (ceq : Y -> Y -> res bool) (solve : qp_solver) (prm : os_params) (eps : Qc).
Variables (Xs : list X) (Ys : list Y).
Hypothesis HE : 0 <= eps.
Notation SS := (combine Xs Ys).
Notation usable := (usable T d prm Xs Ys).
Notation K := (o_C prm * ofN (length Xs)).

Lemma margins_near bm w Yh hs : batch_near eps bm T d Xs Ys -> length w = d -> bm_laug bm Xs Ys w = Ok Yh -> hinges T w SS hs ->
  lsum hs <= lsum (margins T w Xs Ys Yh) + ofN (length Xs) * eps.
Proof.
  intros [HB [_ HM]] Hw EY HH. destruct (HM w Hw) as [Yh' [EY' NW]]. assert (Yh' = Yh) by congruence. subst Yh'.
  assert (Q := hinges_near T eps w SS Yh hs NW HH). assert (LS : length SS = length Xs). { destruct HB as [_ [L _]]. rewrite combine_length, <- L. apply Nat.min_id. }
  rewrite LS in Q. exact Q.
Qed.

Lemma os_loop_final gt k : forall (bm : bmodel X Y) sw st st' reason bm', os_loop ceq solve prm Xs Ys gt k bm sw st = Ok (st', reason, bm') ->
  reason = OSNoConstraint -> bm' = match sw with Some b => b | None => bm end.
Proof.
  induction k as [|k IH]; intros bm sw st st' reason bm' H HR; cbn [os_loop] in H.
  - injection H as _ <- _. discriminate.
  - apply bind_ok in H. destruct H as [oc [EC H]]. destruct oc as [c|].
    + apply bind_ok in H. destruct H as [st1 [E1 H]]. apply IH in H; auto.
    + apply bind_ok in H. destruct H as [r [EF H]]. destruct r as [[Yh c]|].
      * apply bind_ok in H. destruct H as [cache [EU H]]. apply bind_ok in H. destruct H as [st1 [E1 H]]. apply IH in H; auto.
      * destruct sw as [b|]; [apply IH in H; auto|]. injection H as _ _ <-. reflexivity.
Qed.
Lemma one_slack_final ws bm sw st : (0 < length Xs)%nat -> 0 <= o_C prm -> 0 <= o_tol prm -> qp_sound solve ->
  usable bm -> (forall b, sw = Some b -> usable b) -> batch_near eps (match sw with Some b => b | None => bm end) T d Xs Ys ->
  start_ok T d Xs Ys ws ->
  os_fit ceq solve prm bm sw Xs Ys ws = Ok (st, OSNoConstraint) ->
  forall hs, hinges T (o_w st) SS hs ->
    last (o_primal st) 0 <= primal_value (o_C prm) (o_w st) hs /\
    primal_value (o_C prm) (o_w st) hs <= last (o_primal st) 0 + K * eps /\
    (qp_exact solve -> o_neg prm = None -> In (vzero d, 0) (o_cons st) ->
     forall w' hs', length w' = d -> hinges T w' SS hs' ->
       primal_value (o_C prm) (o_w st) hs <= primal_value (o_C prm) w' hs' + K * (o_tol prm + eps) + qp_reg * (K * K)).
Proof.
  intros HN HC HT HS HB HSW HFin HWS H.
  destruct (fit_split T d ceq solve prm Xs Ys bm sw ws st _ HB H) as [s0 [st0 [bm' [p [obj [E0 [EL [EP [EO ->]]]]]]]]].
  assert (G := batch_good _ _ _ _ _ (proj1 HB)).
  destruct (OneSlackProofs.start_inv T d Xs Ys G prm (old_curve ws) ws HWS) as [s1 [E1 [I1 N1]]].
  { intros a [-> | ->]; reflexivity. } { intros ->. reflexivity. } assert (s1 = s0) by congruence. subst s1.
  destruct (OneSlackProofs.loop_inv T d Xs Ys G HN ceq solve prm HC (old_curve ws) _ HS bm sw s0 st0 _ bm' HB HSW I1 (fun _ _ => N1) EL) as [II [NR [HM FN]]].
  assert (HX : batch_near eps bm' T d Xs Ys) by (rewrite (os_loop_final _ _ _ _ _ _ _ _ EL eq_refl); exact HFin).
  specialize (FN eq_refl). assert (Hw : length (o_w st0) = d) by apply II.
  destruct (find_new_form T d Xs Ys G HN prm bm' _ _ _ _ (proj1 HX) Hw FN) as [Yh [c [bad [EY [MC [EB Er]]]]]].
  destruct bad; [|discriminate]. cbn [o_w o_cons o_primal o_slack]. intros hs HH. rewrite last_last.
  assert (NE : Xs <> []) by (destruct Xs; [cbn in HN; lia|discriminate]).
  destruct (objective_near T d eps (bm_s bm') (o_w st0) Xs Ys (o_C prm) OneSlack hs (proj1 G) NE Hw HE HC (proj1 (proj2 HX)) HH) as [r [ER [R1 R2]]].
  assert (r = p) by congruence. subst r. split; auto. split; auto.
  intros QX HNeg HG w' hs' Hw' HH'.
  assert (ML := margins_near bm' (o_w st0) Yh hs HX Hw EY HH).
  assert (CV := con_violation T d Xs Ys G HN (o_w st0) Yh c Hw MC).
  assert (CL := con_length T d Xs Ys G Yh c MC).
  assert (SB := stop_bound T d Xs Ys G prm (old_curve ws) st0 _ c HT II ltac:(congruence) CL EB). rewrite CV in SB.
  assert (NZ := ofN_pos _ HN).
  assert (SB' : lsum hs / ofN (length Xs) <= o_slack st0 + (o_tol prm + eps)).
  { apply Qcle_trans with (lsum (margins T (o_w st0) Xs Ys Yh) / ofN (length Xs) + eps).
    - replace (lsum (margins T (o_w st0) Xs Ys Yh) / ofN (length Xs) + eps) with ((lsum (margins T (o_w st0) Xs Ys Yh) + ofN (length Xs) * eps) / ofN (length Xs)).
      2:{ field. intro Z. rewrite Z in NZ. discriminate NZ. }
      unfold Qcdiv. apply Qcmult_le_compat_r; [exact ML|]. apply Qclt_le_weak, Qcinv_pos. exact NZ.
    - set (x := lsum _ / _) in *. clearbody x. qclra. }
  assert (MP := mean_primal Xs HN (o_C prm) (o_w st0) hs).
  assert (LE : primal_value (o_C prm) (o_w st0) hs <= K * o_slack st0 + normsq (o_w st0) / (1 + 1) + K * (o_tol prm + eps)).
  { rewrite <- MP. assert (P := Qcmult_le_compat_r _ _ K SB' (Cn_nonneg _ _ HC)).
    rewrite (Qcmult_comm _ (lsum hs / _)), (Qcmult_comm _ (o_slack st0)), (Qcmult_comm _ (o_tol prm + eps)).
    rewrite Qcmult_plus_distr_l in P. set (x1 := lsum hs / _ * _) in *. set (x2 := o_slack st0 * _) in *. set (x3 := (o_tol prm + eps) * _) in *.
    set (x4 := normsq (o_w st0) / (1 + 1)). clearbody x1 x2 x3 x4. qclra. }
  assert (NN : near T d Xs Ys prm st0) by (apply NR; auto).
  specialize (NN ltac:(congruence) HG w' hs' Hw' HH'). unfold gap in NN.
  set (x1 := qp_reg * _) in *. set (x2 := primal_value _ w' _) in *. set (x3 := primal_value _ _ hs) in *.
  set (x4 := K * (o_tol prm + eps)) in *. set (x5 := K * o_slack st0) in *.
  set (x6 := normsq (o_w st0) / (1 + 1)) in *. clearbody x1 x2 x3 x4 x5 x6. qclra.
Qed.
Lemma one_slack_near ws bm sw st : (0 < length Xs)%nat -> 0 <= o_C prm -> 0 <= o_tol prm -> qp_sound solve ->
  batch_near eps bm T d Xs Ys -> (o_cache prm = O \/ sm_rescale (bm_s bm) = false) ->
  (forall b, sw = Some b -> batch_near eps b T d Xs Ys /\ (o_cache prm = O \/ sm_rescale (bm_s b) = false)) ->
  start_ok T d Xs Ys ws ->
  os_fit ceq solve prm bm sw Xs Ys ws = Ok (st, OSNoConstraint) ->
  forall hs, hinges T (o_w st) SS hs ->
    last (o_primal st) 0 <= primal_value (o_C prm) (o_w st) hs /\
    primal_value (o_C prm) (o_w st) hs <= last (o_primal st) 0 + K * eps /\
    (qp_exact solve -> o_neg prm = None -> In (vzero d, 0) (o_cons st) ->
     forall w' hs', length w' = d -> hinges T w' SS hs' ->
       primal_value (o_C prm) (o_w st) hs <= primal_value (o_C prm) w' hs' + K * (o_tol prm + eps) + qp_reg * (K * K)).
Proof.
  intros HN HC HT HS HB HR HSW. apply one_slack_final; auto.
  - split; [apply HB|auto].
  - intros b Eb. destruct (HSW b Eb) as [A B]. split; [apply A|auto].
  - destruct sw as [b|]; auto. apply HSW. reflexivity.
Qed.
End one.

Section fw.
Context {X Y : Type} (T : task X Y) (d : nat) (eps : Qc).
Variables (Xs : list X) (Ys : list Y).
Hypothesis HE : 0 <= eps.
Notation SS := (combine Xs Ys).
Lemma gap_near C (bm : bmodel X Y) w l hs : (0 < length Xs)%nat -> 0 <= C -> fw_usable T d Xs Ys bm -> batch_near eps bm T d Xs Ys -> length w = d -> hinges T w SS hs ->
  exists P, calc_dual_gap C bm Xs Ys w l = Ok (dual_objective C (length Xs) w l, P - dual_objective C (length Xs) w l, P) /\
    P <= primal_value C w hs /\ primal_value C w hs <= P + C * ofN (length Xs) * eps.
Proof.
  intros HN HC HU HB Hw HH. assert (G := batch_good _ _ _ _ _ (proj1 HB)). destruct HB as [HB1 [HB2 HB3]]. destruct (HB3 w Hw) as [Yh [EY NW]].
  assert (LY : labelling T Xs Yh). { destruct HB1 as [_ [_ [_ [_ HL]]]]. destruct (HL w Hw) as [Yh' [A B]]. assert (Yh' = Yh) by congruence. subst. exact B. }
  exists (primal_value C w (margins T w Xs Ys Yh)). split; [apply (calc_value T d C Xs Ys bm w l Yh); auto|].
  assert (ML := margins_near T d eps Xs Ys bm w Yh hs (conj HB1 (conj HB2 HB3)) Hw EY HH).
  assert (MU := margins_le T d Xs Ys G w Yh hs LY HH).
  unfold primal_value. set (u := lsum (margins _ _ _ _ _)) in *. set (h := lsum hs) in *. clearbody u h.
  assert (A' := Qcmult_le_compat_r _ _ C MU HC). assert (B' := Qcmult_le_compat_r _ _ C ML HC).
  replace ((u + ofN (length Xs) * eps) * C) with (C * u + C * ofN (length Xs) * eps) in B' by ring. rewrite !(Qcmult_comm _ C) in A'. rewrite (Qcmult_comm h C) in B'.
  set (x := C * u) in *. set (y := C * h) in *. set (z := C * ofN (length Xs) * eps) in *. set (nn := normsq w / (1 + 1)). clearbody x y z nn. split; qclra.
Qed.
Lemma fw_certificate_near prm (bm : bmodel X Y) sched w l p P o c D : (0 < length Xs)%nat -> 0 <= fw_C prm -> fw_usable T d Xs Ys bm -> batch_near eps bm T d Xs Ys -> fw_batch prm = false ->
  fw_fit prm bm Xs Ys sched None = Ok (w, l, p ++ [P; o], c ++ [D; D]) -> P - D < fw_tol prm ->
  forall hs, hinges T w SS hs -> P <= primal_value (fw_C prm) w hs /\ primal_value (fw_C prm) w hs <= P + fw_C prm * ofN (length Xs) * eps /\
    forall w' hs', length w' = d -> hinges T w' SS hs' ->
      primal_value (fw_C prm) w hs <= primal_value (fw_C prm) w' hs' + fw_tol prm + fw_C prm * ofN (length Xs) * eps.
Proof.
  intros HN HC HU HB EB H HT hs HH. apply (fit_result T d prm Xs Ys bm HU) in H. destruct H as [p' [c' [o' [E1 [E2 [NE [Eo HH']]]]]]].
  change (p ++ [P; o]) with (p ++ [P] ++ [o]) in E1. rewrite app_assoc in E1. apply app_inj_tail in E1. destruct E1 as [<- <-].
  change (c ++ [D; D]) with (c ++ [D] ++ [D]) in E2. rewrite app_assoc in E2. apply app_inj_tail in E2. destruct E2 as [<- _].
  destruct HH' as [[E _]|[_ [s [ES [-> ->]]]]]; [congruence|]. destruct (bc_inv T d prm Xs Ys bm HN HC HU sched s _ _ ES) as [I1 [_ [_ [I4 [_ I6]]]]].
  rewrite !last_last in I6. specialize (I6 NE HT). assert (LW := self_w_length T d prm Xs Ys (HG T d Xs Ys bm HU) s I1).
  destruct (gap_near (fw_C prm) bm (fs_self_w s) (fs_self_l s) hs HN HC HU HB LW HH) as [P' [EG [Q1 Q2]]]. rewrite EG in I6. destruct (ok3_inj _ _ _ _ _ _ I6) as [ED [_ EP]]. subst P'.
  split; auto. split; auto. intros w' hs' Hw' HH2. apply Forall_app in I4. destruct I4 as [_ I4]. apply Forall_cons_iff in I4. destruct I4 as [B _].
  assert (Q := B w' hs' Hw' HH2). set (a := primal_value (fw_C prm) w' hs') in *. set (b := primal_value _ _ hs) in *. set (z := fw_C prm * _ * eps) in *. clearbody a b z. clear - Q Q2 HT. qclra.
Qed.
End fw.

From Coq Require Import ZArith.
From Verif Require Import Model.NSlack Spec.NSlackSpec Spec.CuttingPlaneSpec Proofs.Arrays Proofs.LossProofs Proofs.LearnerProofs
  Proofs.QPProofs Proofs.QPProofs2 Proofs.QPProofs3 Proofs.NSlackProofs Proofs.NSlackProofs2 Proofs.NSlackProofs3 Proofs.NSlackProofs4 Proofs.PerceptronProofs4 Proofs.CuttingPlane3.

Lemma last_step_app curve o : curve <> [] -> last_step (curve ++ [o]) = o - last curve 0.
Proof.
  intro H. destruct (exists_last H) as [l [x ->]]. rewrite last_last. unfold last_step. rewrite !app_length. cbn [length].
  replace (length l + 1 + 1 - 1)%nat with (length l + 1)%nat by lia. replace (length l + 1 + 1 - 2)%nat with (length l) by lia.
  assert (E1 : get1 ((l ++ [x]) ++ [o]) (length l + 1) = o). { unfold get1. rewrite app_nth2; rewrite app_length; cbn [length]; [|lia]. rewrite Nat.sub_diag. reflexivity. }
  assert (E2 : get1 ((l ++ [x]) ++ [o]) (length l) = x). { unfold get1. rewrite <- app_assoc. cbn [app]. apply nth_middle. }
  rewrite E1, E2. reflexivity.
Qed.

(** ** the objective never decreases without pruning *)
Section mono.
Context {X Y : Type} (T : task X Y) (d : nat) (yeq : Y -> Y -> bool) (solve : qp_solver) (prm : ns_params).
Variable samples : list (X * Y).
Variable n : nat.
Hypothesis HC : 0 <= ns_C prm.
Hypothesis feat_len : forall p y', In p samples -> t_label T (fst p) y' -> length (t_feat T (fst p) y') = d.
Hypothesis label_self : forall p, In p samples -> t_label T (fst p) (snd p).
Hypothesis HW : ns_window prm = O.
Hypothesis HNeg : ns_neg prm = None.
Hypothesis HX : qp_exact solve.
Hypothesis yrefl : forall a, yeq a a = true.
Hypothesis HA : answers_all solve (ns_C prm) n T samples.

Definition value (w : list Qc) (groups : list (list (list Qc * Qc))) : Qc := ns_C prm * lsum (map (group_slack w) groups) + normsq w / (1 + 1).
Definition Qopt (w : list Qc) (o : Qc) (groups : list (list (list Qc * Qc))) : Prop := o = value w groups /\ below d (ns_C prm) o groups.
Lemma solve_opt (cs : list (list (ncon Y))) active w obj cs' active' :
  Forall (fun c => length (fst c) = d) (concat (pairs cs)) -> working_set T samples cs ->
  solve_n_slack_qp solve prm n cs active = Ok (w, obj, cs', active') ->
  length w = d /\ Qopt w obj (pairs cs) /\ cs' = cs.
Proof.
  intros HF HWS H.
  assert (E1 : map (fun c => fst (ncon_pair c)) (concat cs) = map fst (concat (pairs cs))) by (rewrite concat_pairs, map_map; reflexivity).
  assert (E2 : map (fun c => snd (ncon_pair c)) (concat cs) = map snd (concat (pairs cs))) by (rewrite concat_pairs, map_map; reflexivity).
  unfold solve_n_slack_qp in H. rewrite E1, E2, <- pairs_length, HNeg in H.
  apply bind_ok in H. destruct H as [[a o] [ER H]]. apply bind_ok in H. destruct H as [[c1 c2] [EP H]].
  apply bind_ok in H. destruct H as [w0 [EW H]]. cbn [fst snd] in *. injection H as <- <- <- <-.
  unfold run_qp in ER. apply bind_ok in ER. destruct ER as [p [Ep ER]].
  assert (EA := HA cs p HWS). rewrite E1, E2, <- pairs_length in EA. specialize (EA Ep).
  destruct (solve p) as [[a' v]|] eqn:ES; [|congruence]. injection ER as <- <-.
  destruct (HX _ _ _ ES) as [OPT VA].
  destruct (nslack_strong0 d (ns_C prm) n (pairs cs) p a' HC HF Ep OPT) as [w1 [EW1 [EV BL]]]. assert (w1 = w0) by congruence. subst w1.
  apply prune0_n in EP; auto. split; [|split; auto].
  - eapply weights_length; [|exact EW]. apply pairs_len; auto.
  - split; [unfold value; rewrite <- EV, VA; reflexivity|]. intros w' xi L C. rewrite VA, EV. apply BL; auto.
Qed.
Lemma gather_incl w cands : forall (cs : list (list (ncon Y))) new sl cs' new' sl',
  gather yeq prm w cands cs new sl = Ok (cs', new', sl') -> Forall2 (fun s s' => incl s s') cs cs'.
Proof.
  induction cands as [|[i [[[yh dl] slack] loss]] cands IH]; intros cs new sl cs' new' sl' H; cbn [gather] in H.
  - injection H as <- <- <-. clear. induction cs; constructor; auto. apply incl_refl.
  - destruct (negb (Qcltb 0 loss)). { eapply IH; eauto. }
    apply bind_ok in H. destruct H as [old [E1 H]]. apply bind_ok in H. destruct H as [bad [E2 H]].
    destruct bad. { eapply IH; eauto. }
    apply bind_ok in H. destruct H as [cs1 [E3 H]]. specialize (IH _ _ _ _ _ _ H).
    assert (A : Forall2 (fun s s' => incl s s') cs cs1).
    { clear - E3. revert cs cs1 E3. induction i; intros [|s cs] cs1 E; try discriminate; cbn [append_at] in E.
      - injection E as <-. constructor. { apply incl_appl, incl_refl. } clear. induction cs; constructor; auto. apply incl_refl.
      - apply bind_ok in E. destruct E as [r [E1 E]]. injection E as <-. constructor; auto. apply incl_refl. }
    clear - A IH. revert cs' IH. induction A; intros cs' IH; inversion IH; subst; constructor; auto. eapply incl_tran; eauto.
Qed.
Definition positive (cs : list (list (ncon Y))) : Prop := Forall (Forall (fun e : ncon Y => 0 < snd e)) cs.
Lemma gather_pos w cands : forall (cs : list (list (ncon Y))) new sl cs' new' sl', positive cs ->
  gather yeq prm w cands cs new sl = Ok (cs', new', sl') -> positive cs'.
Proof.
  induction cands as [|[i [[[yh dl] slack] loss]] cands IH]; intros cs new sl cs' new' sl' HP H; cbn [gather] in H.
  - injection H as <- <- <-. auto.
  - destruct (Qcltb_spec 0 loss) as [LP|LP]; cbn [negb] in H. 2:{ eapply IH; eauto. }
    apply bind_ok in H. destruct H as [old [E1 H]]. apply bind_ok in H. destruct H as [bad [E2 H]].
    destruct bad. { eapply IH; eauto. }
    apply bind_ok in H. destruct H as [cs1 [E3 H]]. assert (A : positive cs1); [|exact (IH _ _ _ _ _ _ A H)].
    clear - E3 HP LP. unfold positive in *. revert cs cs1 E3 HP. induction i; intros [|s cs] cs1 E HP; try discriminate; cbn [append_at] in E; inversion HP as [|? ? P1 P2]; subst.
    + injection E as <-. constructor; auto. apply Forall_app. split; auto.
    + apply bind_ok in E. destruct E as [r [E1 E]]. injection E as <-. constructor; eauto.
Qed.
Lemma build_ws cs : wvalid T samples cs -> positive cs -> nodup cs -> working_set T samples cs.
Proof.
  unfold wvalid, positive, nodup, working_set. generalize samples. intros S H. induction H; intros HP HN; constructor; inversion HP; inversion HN; subst; auto.
Qed.
Lemma covers_incl w (cs cs' : list (list (ncon Y))) : Forall2 (fun s s' => incl s s') cs cs' -> covers w (pairs cs) (map (group_slack w) (pairs cs')).
Proof.
  unfold covers. induction 1; cbn [pairs map]; constructor; auto. split; [apply group_slack_nonneg|].
  intros c Hc. apply group_slack_ge. apply in_map_iff in Hc. destruct Hc as [e [<- He]]. apply in_map. auto.
Qed.
Definition minv (st : ns_state Y) : Prop :=
  length (st_w st) = d /\ wvalid T samples (st_cons st) /\ positive (st_cons st) /\ nodup (st_cons st) /\ forall o, st_objective st = Some o -> Qopt (st_w st) o (pairs (st_cons st)).
Definition grows (st st' : ns_state Y) : Prop := forall o, st_objective st = Some o -> exists o', st_objective st' = Some o' /\ o <= o'.

Lemma batch_mono m b st sl st' new sl' : oracle_ok m T d samples -> minv st ->
  ns_batch_step yeq solve prm m samples n b st sl = Ok (st', new, sl') -> minv st' /\ grows st st'.
Proof.
  intros HO [I1 [I2 [IP [IN I3]]]] H. unfold ns_batch_step in H. apply bind_ok in H. destruct H as [cands [E H]].
  apply bind_ok in H. destruct H as [[[cs nw] s1] [EG H]].
  assert (CO := cands_ok T d samples m (st_w st) (fst b) (snd b) cands HO I1 E).
  destruct (gather_inv T yeq prm samples _ _ _ _ _ _ _ _ CO I2 EG) as [G1 [G2 G3]]. assert (GI := gather_incl _ _ _ _ _ _ _ _ EG).
  assert (GP := gather_pos _ _ _ _ _ _ _ _ IP EG). destruct (gather_count yeq prm HW yrefl _ _ _ _ _ _ _ _ IN EG) as [GN _].
  destruct (Nat.eqb_spec nw 0) as [->|NE].
  - injection H as <- <- <-. rewrite (G3 eq_refl). split; [repeat (split; auto)|]. intros o Ho. exists o. split; auto. apply Qcle_refl.
  - apply bind_ok in H. destruct H as [[[[w obj] cs1] act] [ES H]]. injection H as <- <- <-.
    destruct (solve_opt _ _ _ _ _ _ (wvalid_len T d samples feat_len label_self _ G1) (build_ws _ G1 GP GN) ES) as [Q1 [Q2 ->]].
    split.
    + split; [exact Q1|]. split; [exact G1|]. split; [exact GP|]. split; [exact GN|]. intros o Ho. cbn [st_objective st_w st_cons] in *. injection Ho as <-. exact Q2.
    + intros o Ho. exists obj. split; [reflexivity|]. destruct (I3 o Ho) as [_ B]. destruct Q2 as [-> _]. unfold value. apply B; auto. apply covers_incl; auto.
Qed.
Lemma batches_mono m bs : oracle_ok m T d samples -> forall st new sl st' new' sl', minv st ->
  ns_batches yeq solve prm m samples n bs st new sl = Ok (st', new', sl') -> minv st' /\ grows st st'.
Proof.
  intro HO. induction bs as [|b bs IH]; intros st new sl st' new' sl' HI H; cbn [ns_batches] in H.
  - injection H as <- <- <-. split; auto. intros o Ho. exists o. split; auto. apply Qcle_refl.
  - apply bind_ok in H. destruct H as [[[st1 k] sl1] [E H]]. destruct (batch_mono _ _ _ _ _ _ _ HO HI E) as [A1 A2].
    destruct (IH _ _ _ _ _ _ A1 H) as [B1 B2]. split; auto. intros o Ho. destruct (A2 o Ho) as [o1 [E1 L1]]. destruct (B2 o1 E1) as [o2 [E2 L2]]. exists o2. split; auto. eapply Qcle_trans; eauto.
Qed.
Lemma sorted_app l x : sorted l -> (l <> [] -> last l 0 <= x) -> sorted (l ++ [x]).
Proof.
  induction l as [|a l IH]; intros H L; [exact I|]. destruct l as [|b l].
  - cbn. split; auto. apply (L ltac:(discriminate)).
  - cbn [app sorted] in *. destruct H as [H1 H2]. split; auto. apply IH; auto. intros _. apply (L ltac:(discriminate)).
Qed.
Lemma loop_mono k : forall it m sw st curve primal st' curve' primal' reason m',
  oracle_ok m T d samples -> (forall m', sw = Some m' -> oracle_ok m' T d samples) -> minv st -> sorted curve ->
  (curve <> [] -> st_objective st = Some (last curve 0)) -> ((1 < it)%nat -> curve <> []) ->
  ns_loop yeq solve prm samples n k it m sw st curve primal = Ok (st', curve', primal', reason, m') ->
  minv st' /\ sorted curve' /\ (curve' <> [] -> st_objective st' = Some (last curve' 0)) /\ (ns_tol prm <= 0 -> reason <> ObjectiveConverged).
Proof.
  induction k as [|k IH]; intros it m sw st curve primal st' curve' primal' reason m' HO HSW HI HS HL HT H; cbn [ns_loop] in H.
  - injection H as <- <- <- <- <-. repeat (split; auto). discriminate.
  - apply bind_ok in H. destruct H as [bs [EB H]]. apply bind_ok in H. destruct H as [[[st1 new] sl] [EQ H]].
    destruct (batches_mono m bs HO _ _ _ _ _ _ HI EQ) as [B1 B2].
    apply bind_ok in H. destruct H as [obj [EO H]].
    assert (SO : st_objective st1 = Some obj) by (destruct (st_objective st1); congruence).
    assert (LE : curve <> [] -> last curve 0 <= obj). { intro NE. destruct (B2 _ (HL NE)) as [o1 [E1 L1]]. congruence. }
    assert (SS := sorted_app curve obj HS LE).
    assert (LL : curve ++ [obj] <> [] -> st_objective st1 = Some (last (curve ++ [obj]) 0)) by (intros _; rewrite last_last; auto).
    assert (NN : (1 < S it)%nat -> curve ++ [obj] <> []) by (intros _; destruct curve; discriminate).
    match type of H with context [if ?b then _ else _] => destruct b eqn:STOP end.
    + destruct sw as [m2|].
      * assert (HN : forall m3, None = Some m3 -> oracle_ok m3 T d samples) by discriminate.
        exact (IH _ _ _ _ _ _ _ _ _ _ _ (HSW m2 eq_refl) HN B1 SS LL NN H).
      * assert (ES : st' = st1 /\ curve' = curve ++ [obj] /\ reason = (if (new =? 0)%nat then NoNewConstraint else ObjectiveConverged)) by (repeat split; congruence).
        destruct ES as [-> [-> ->]]. split; auto. split; auto. split; auto. intros HTol. destruct (new =? 0)%nat; [discriminate|].
        exfalso. cbn [orb] in STOP. apply andb_true_iff in STOP. destruct STOP as [S1 S2]. apply Nat.ltb_lt in S1. specialize (HT S1).
        rewrite (last_step_app _ _ HT) in S2. specialize (LE HT). destruct (Qcltb_spec (obj - last curve 0) (ns_tol prm)) as [Z|Z]; [|discriminate].
        set (x := last curve 0) in *. clearbody x. clear - LE HTol Z. qclra.
    + exact (IH _ _ _ _ _ _ _ _ _ _ _ HO HSW B1 SS LL NN H).
Qed.
End mono.

(** ** tolerance bound, with any pruning *)
Section tol.
Context {X Y : Type} (T : task X Y) (d : nat) (yeq : Y -> Y -> bool) (solve : qp_solver) (prm : ns_params).
Variables (Xs : list X) (Ys : list Y).
Notation samples := (combine Xs Ys).
Notation n := (length Xs).
Hypothesis HC : 0 <= ns_C prm.
Hypothesis HXY : length Xs = length Ys.
Hypothesis HX : qp_exact solve.
Hypothesis HT : 0 < ns_tol prm.
Variable m0 : smodel X Y.
Hypothesis HO0 : oracle_ok m0 T d samples.
Variable hs : list Qc.
Hypothesis Hhs : hinges T (vzero d) samples hs.
Let U := ns_C prm * lsum hs.

Definition Qpos (w : list Qc) (o : Qc) (groups : list (list (list Qc * Qc))) : Prop := 0 <= o /\ below d (ns_C prm) o groups.
Lemma comb_zero k psis : comb d (vzero k) psis = vzero d.
Proof.
  apply vec_ext; [rewrite comb_length, vzero_length; auto|]. intros i Hi. rewrite comb_length in Hi. rewrite get1_vzero. unfold comb. rewrite get1_tab1 by auto.
  rewrite (sumn_ext _ _ (fun _ => 0)). apply sumn_0. intros c Hc. rewrite get1_vzero. ring.
Qed.
Lemma solve_pos (cs : list (list (ncon Y))) active w obj cs' active' :
  Forall (fun c => length (fst c) = d) (concat (pairs cs)) ->
  solve_n_slack_qp solve prm n cs active = Ok (w, obj, cs', active') ->
  length w = d /\ Qpos w obj (pairs cs) /\ Forall2 (fun s s' => incl s' s) cs cs'.
Proof.
  intros HF H. destruct (solve_sound solve prm n d _ _ _ _ _ _ (qp_exact_sound _ HX) HC HF H) as [A [_ [B D]]]. split; auto. split; auto. split; auto.
  apply solve_inv in H. destruct H as [a [reg [p [Hr [EP [ES _]]]]]].
  assert (HN := nslack_of_nonempty _ _ _ _ _ _ EP). set (z := vzero (length (concat (pairs cs)))).
  assert (Lz : length z = length (concat (pairs cs))) by apply vzero_length.
  destruct (nslack_of_feasible d _ _ _ _ _ _ z HN HF EP) as [FE [VA _]].
  destruct (HX _ _ _ ES) as [[_ OPT] V].
  assert (FZ : qp_feasible p z).
  { apply FE. split; [rewrite map_length; auto|]. split; [|split].
    - intros c _. unfold z. rewrite get1_vzero. apply Qcle_refl.
    - intros i _. rewrite (sumn_ext _ _ (fun _ => 0)). { rewrite sumn_0. exact HC. } intros c _. unfold z. rewrite get1_vzero. ring.
    - intros idx _ i _. unfold z. rewrite comb_zero, get1_vzero. apply Qcle_refl. }
  apply OPT in FZ. rewrite <- V, (VA Lz) in FZ. unfold dual_value, z, normsq in FZ. rewrite comb_zero, !dot_vzero_r in FZ.
  replace (reg * 0 / (1 + 1) - (0 - 0 / (1 + 1))) with 0 in FZ by (unfold Qcdiv; ring). clear - FZ. qclra.
Qed.
Notation tinv := (inv T d samples Qpos).
Lemma obj_range st o : tinv st -> st_objective st = Some o -> 0 <= o /\ o <= U.
Proof.
  intros [_ [_ I]] H. destruct (I o H) as [full [F1 [_ [P B]]]]. split; auto.
  specialize (B (vzero d) hs (vzero_length d)). unfold normsq in B. rewrite dot_vzero_l in B.
  unfold U. eapply Qcle_trans; [apply B|].
  - apply (hinges_cover T d (vzero d) samples); auto. apply (feat_len_ok T d m0); auto. apply (label_self_ok T d m0); auto.
  - apply Qceq_le. unfold Qcdiv. ring.
Qed.
Lemma U_nonneg : 0 <= U.
Proof.
  unfold U. apply Qcmult_nonneg; auto. apply lsum_nonneg. intros x Hx.
  assert (G : forall S, (forall p, In p S -> t_label T (fst p) (snd p) /\ t_loss T (snd p) (snd p) = 0) -> forall hs, hinges T (vzero d) S hs -> In x hs -> 0 <= x).
  { intros S HS hs' H. induction H as [|p h l r HP HF IH]; intros [].
    - subst. destruct HP as [_ B]. destruct (HS p (or_introl eq_refl)) as [L Z]. specialize (B _ L). unfold margin in B. rewrite Z in B.
      eapply Qcle_trans; [|exact B]. apply Qceq_le. ring.
    - apply IH; auto. intros q Hq. apply HS. right; auto. }
  apply (G samples (label_self_ok T d m0 Xs Ys HO0) hs); auto.
Qed.

Lemma step_max k it m sw st curve primal st' curve' primal' m' :
  oracle_ok m T d samples -> (forall m', sw = Some m' -> oracle_ok m' T d samples) -> tinv st ->
  ns_loop yeq solve prm samples n (S k) it m sw st curve primal = Ok (st', curve', primal', MaxIter, m') ->
  exists m1 sw1 st1 obj pr1, ns_loop yeq solve prm samples n k (S it) m1 sw1 st1 (curve ++ [obj]) pr1 = Ok (st', curve', primal', MaxIter, m') /\
    oracle_ok m1 T d samples /\ (forall m', sw1 = Some m' -> oracle_ok m' T d samples) /\ tinv st1 /\ 0 <= obj /\ obj <= U /\
    ((sw1 = sw /\ ((1 < it)%nat -> ns_tol prm <= last_step (curve ++ [obj]))) \/ (sw <> None /\ sw1 = None)).
Proof.
  intros HO HSW HI H. cbn [ns_loop] in H.
  apply bind_ok in H. destruct H as [bs [EB H]]. apply bind_ok in H. destruct H as [[[st1 new] sl] [EQ H]].
  destruct (batches_inv T d yeq solve prm samples n (feat_len_ok T d m0 Xs Ys HO0) (fun p Hp => proj1 (label_self_ok T d m0 Xs Ys HO0 p Hp)) Qpos solve_pos m bs HO _ _ _ _ _ _ HI EQ) as [B1 _].
  apply bind_ok in H. destruct H as [obj [EO H]].
  assert (SO : st_objective st1 = Some obj) by (destruct (st_objective st1); congruence).
  destruct (obj_range st1 obj B1 SO) as [O1 O2].
  match type of H with context [if ?b then _ else _] => destruct b eqn:STOP end.
  - destruct sw as [m2|]; [|destruct (new =? 0)%nat; discriminate].
    exists m2, None, st1, obj. eexists. split; [exact H|]. split; [auto|]. split; [discriminate|]. split; auto. split; auto. split; auto. right. split; auto. discriminate.
  - exists m, sw, st1, obj. eexists. split; [exact H|]. split; [auto|]. split; [auto|]. split; auto. split; auto. split; auto. left. split; auto.
    intro L. apply orb_false_iff in STOP. destruct STOP as [_ STOP]. apply Nat.ltb_lt in L. rewrite L in STOP. cbn [andb] in STOP.
    destruct (Qcltb_spec (last_step (curve ++ [obj])) (ns_tol prm)) as [Z|Z]; [discriminate|]. exact Z.
Qed.
Definition slackness {A} (sw : option A) : Qc := match sw with None => 0 | Some _ => U + ns_tol prm end.
Lemma slackness_nonneg {A} (sw : option A) : 0 <= slackness sw.
Proof. assert (P := U_nonneg). destruct sw; cbn [slackness]; [|apply Qcle_refl]. set (u := U) in *. clearbody u. clear - P HT. qclra. Qed.
Lemma tol_loop k : forall it m sw st curve primal st' curve' primal' m',
  oracle_ok m T d samples -> (forall m', sw = Some m' -> oracle_ok m' T d samples) -> tinv st -> (1 < it)%nat -> curve <> [] ->
  0 <= last curve 0 -> last curve 0 <= U ->
  ns_loop yeq solve prm samples n k it m sw st curve primal = Ok (st', curve', primal', MaxIter, m') ->
  ofN k * ns_tol prm <= U - last curve 0 + slackness sw.
Proof.
  induction k as [|k IH]; intros it m sw st curve primal st' curve' primal' m' HO HSW HI Hit HN L0 L1 H.
  - rewrite ofN_0. assert (P := slackness_nonneg sw). replace (0 * ns_tol prm) with 0 by ring. set (s := slackness sw) in *. set (u := U) in *. set (x := last curve 0) in *. clearbody s u x. clear - L1 P. qclra.
  - apply step_max in H; auto. destruct H as [m1 [sw1 [st1 [obj [pr1 [H [A1 [A2 [A3 [A4 [A5 A6]]]]]]]]]]].
    apply IH in H; auto; try lia; try (rewrite last_last; auto). 2:{ destruct curve; discriminate. }
    rewrite last_last in H. rewrite ofN_S. replace ((1 + ofN k) * ns_tol prm) with (ns_tol prm + ofN k * ns_tol prm) by ring.
    destruct A6 as [[-> A6]|[A6 ->]].
    + specialize (A6 Hit). rewrite (last_step_app _ _ HN) in A6. set (x := ofN k * ns_tol prm) in *. set (s := slackness sw) in *. set (u := U) in *. set (y := last curve 0) in *. clearbody s u x y. clear - A6 H. qclra.
    + destruct sw as [b|]; [|congruence]. cbn [slackness] in *. set (x := ofN k * ns_tol prm) in *. set (u := U) in *. set (y := last curve 0) in *. clearbody u x y. clear - A4 H L1. qclra.
Qed.
Lemma slackness_le {A} (sw sw1 : option A) : (sw1 = sw \/ sw <> None /\ sw1 = None) -> slackness sw1 <= slackness sw.
Proof. intros [->|[_ ->]]; [apply Qcle_refl|]. apply slackness_nonneg. Qed.
Lemma nfit_tol sw old st curve primal : sm_size m0 = d -> (forall m', sw = Some m' -> oracle_ok m' T d samples) ->
  ns_fit yeq solve prm m0 sw Xs Ys None old = Ok (st, curve, primal, MaxIter) ->
  ofN (ns_max_iter prm - 2) * ns_tol prm <= U + slackness sw.
Proof.
  intros Hd HSW H. apply nfit_split in H; auto. destruct H as [cu [pr [m' [obj [p [EL _]]]]]].
  assert (P0 := U_nonneg). assert (P1 := slackness_nonneg sw).
  destruct (ns_max_iter prm) as [|[|k]]; try (change (ofN (_ - 2)) with (ofN 0); rewrite ofN_0; replace (0 * ns_tol prm) with 0 by ring; set (u := U) in *; set (s := slackness sw) in *; clearbody u s; clear - P0 P1; qclra).
  replace (S (S k) - 2)%nat with k by lia.
  apply step_max in EL; auto. 2:{ apply (start_inv T d m0); auto. }
  destruct EL as [m1 [sw1 [st1 [o1 [pr1 [EL [A1 [A2 [A3 [A4 [A5 A6]]]]]]]]]]].
  apply step_max in EL; auto. destruct EL as [m2 [sw2 [st2 [o2 [pr2 [EL [B1 [B2 [B3 [B4 [B5 B6]]]]]]]]]]].
  apply tol_loop in EL; auto; try (rewrite last_last; auto). 2:{ discriminate. }
  rewrite last_last in EL.
  assert (S1 : slackness sw1 <= slackness sw) by (apply slackness_le; tauto). assert (S2 : slackness sw2 <= slackness sw1) by (apply slackness_le; tauto).
  set (x := ofN k * ns_tol prm) in *. set (u := U) in *. set (s := slackness sw) in *. set (s1 := slackness sw1) in *. set (s2 := slackness sw2) in *. clearbody x u s s1 s2. clear - EL S1 S2 B4. qclra.
Qed.
End tol.

(** fit with a non-positive tolerance stops because no constraint is left *)
Section clean.
Context {X Y : Type} (T : task X Y) (d : nat) (yeq : Y -> Y -> bool) (solve : qp_solver) (prm : ns_params).
Variables (m : smodel X Y) (sw : option (smodel X Y)) (Xs : list X) (Ys : list Y).
Lemma nfit_mono old st curve primal reason : 0 <= ns_C prm -> length Xs = length Ys -> sm_size m = d ->
  oracle_ok m T d (combine Xs Ys) -> (forall m', sw = Some m' -> oracle_ok m' T d (combine Xs Ys)) ->
  ns_window prm = O -> ns_neg prm = None -> qp_exact solve -> (forall a, yeq a a = true) -> answers_all solve (ns_C prm) (length Xs) T (combine Xs Ys) ->
  ns_fit yeq solve prm m sw Xs Ys None old = Ok (st, curve, primal, reason) ->
  sorted curve /\ (ns_tol prm <= 0 -> reason <> ObjectiveConverged).
Proof.
  intros HC HXY Hd HO HOS HW HNeg HX HY HA H. apply nfit_split in H; auto. destruct H as [cu [pr [m' [obj [p [EL [-> [_ EO]]]]]]]].
  assert (M0 : minv T d prm (combine Xs Ys) (NSState (vzero (sm_size m)) (repeat [] (length Xs)) (repeat [] (length Xs)) None)).
  { destruct (start_inv T d m Xs Ys HXY Hd Qany) as [S1 [S2 _]]. split; [exact S1|]. split; [exact S2|]. cbn [st_cons st_objective]. split; [|split; [|discriminate]].
    - unfold positive. clear. induction (length Xs); cbn [repeat]; constructor; auto.
    - unfold nodup. clear. induction (length Xs); cbn [repeat]; constructor; auto. constructor. }
  assert (S0 : sorted []) by exact I. assert (C0 : ([] : list Qc) <> [] -> st_objective (NSState (vzero (sm_size m)) (repeat ([] : list (ncon Y)) (length Xs)) (repeat [] (length Xs)) None) = Some (last [] 0)) by congruence.
  assert (I0 : (1 < 0)%nat -> ([] : list Qc) <> []) by lia.
  destruct (loop_mono T d yeq solve prm (combine Xs Ys) (length Xs) HC (feat_len_ok T d m Xs Ys HO) (fun p Hp => proj1 (label_self_ok T d m Xs Ys HO p Hp)) HW HNeg HX HY HA _ _ _ _ _ _ _ _ _ _ _ _
     HO HOS M0 S0 C0 I0 EL) as [L1 [L2 [L3 L4]]].
  split; auto. apply sorted_app; auto. intro NE. specialize (L3 NE). assert (last cu 0 = obj) as -> by congruence. apply Qcle_refl.
Qed.
End clean.

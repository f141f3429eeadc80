From Coq Require Import ZArith.
From Verif Require Import Model.BatchInstances Spec.TaskInstances Proofs.Arrays Proofs.LossProofs Proofs.CRFProofs Proofs.LearnerProofs
  Proofs.UnstructuredProofs Proofs.UnstructuredProofs2 Proofs.QPProofs Proofs.NSlackProofs5 Proofs.NSlackExamples Proofs.OneSlackExamples Proofs.OneSlackProofs Proofs.OneSlackProofs2 Model.FrankWolfe Spec.FrankWolfeSpec Proofs.FrankWolfeProofs Proofs.FrankWolfeProofs2 Proofs.FrankWolfeProofs3.
Notation mix := FrankWolfe.mix.

Lemma ok3_inj {A B C : Type} (a a' : A) (b b' : B) (c c' : C) : Ok (a, b, c) = Ok (a', b', c') -> a = a' /\ b = b' /\ c = c'.
Proof. intro H. injection H as -> -> ->. auto. Qed.
(** ** averaging *)
Definition tri (k : nat) : Qc := ofN k * (ofN k + 1) / (1 + 1).
Lemma tri_S k : tri (S k) = tri k + ofN (S k).
Proof. unfold tri. rewrite !ofN_S. set (a := ofN k). clearbody a. field. discriminate. Qed.
Lemma lsum_seq n : forall k, lsum (map ofN (seq (S k) n)) = tri (k + n) - tri k.
Proof.
  induction n as [|n IH]; intro k; cbn [seq map lsum]. { rewrite Nat.add_0_r. ring. }
  rewrite IH. replace (S k + n)%nat with (k + S n)%nat by lia. rewrite tri_S. ring.
Qed.
Lemma tri_neq n : (0 < n)%nat -> tri n <> 0.
Proof.
  intros H E. unfold tri in E. assert (P := ofN_pos n H). set (a := ofN n) in *. clearbody a.
  assert (E2 : a * (a + 1) = 0). { replace (a * (a + 1)) with ((1 + 1) * (a * (a + 1) / (1 + 1))) by (field; discriminate). rewrite E. ring. }
  apply Qcmult_integral in E2. destruct E2 as [E2|E2]. { rewrite E2 in P. discriminate P. } assert (Q : 0 < a + 1) by qclra. rewrite E2 in Q. discriminate Q.
Qed.
Lemma avg_step k a v : tri (S k) * mix ((1 + 1) / (ofN k + (1 + 1))) a v = tri k * a + ofN (S k) * v.
Proof.
  unfold tri, mix. rewrite ofN_S. assert (Q := ofN_nonneg k). set (b := ofN k) in *. clearbody b.
  assert (NZ : b + (1 + 1) <> 0). { intro Z. assert (P : 0 < b + (1 + 1)) by qclra. rewrite Z in P. discriminate P. }
  field. split; [discriminate|exact NZ].
Qed.
Lemma trace_avg {X Y} (prm : fw_params) (m : smodel X Y) Xs Ys : fw_avg prm = true -> forall tr st, length (fs_self_w st) = length (fs_w st) ->
  fw_trace prm m Xs Ys st tr -> let fin := last tr st in
  length (fs_self_w fin) = length (fs_w st) /\ fs_k fin = (fs_k st + length tr)%nat /\ Forall (fun s => length (fs_w s) = length (fs_w st)) tr /\
  (forall i, tri (fs_k st + length tr) * get1 (fs_self_w fin) i =
    tri (fs_k st) * get1 (fs_self_w st) i + lsum (zipw (fun j v => ofN j * v) (seq (S (fs_k st)) (length tr)) (map (fun s => get1 (fs_w s) i) tr))) /\
  tri (fs_k st + length tr) * fs_self_l fin =
    tri (fs_k st) * fs_self_l st + lsum (zipw (fun j v => ofN j * v) (seq (S (fs_k st)) (length tr)) (map fs_l tr)).
Proof.
  intro HA. induction tr as [|s tr IH]; intros st HL HT.
  - cbn [last length seq zipw map lsum]. rewrite Nat.add_0_r. repeat split; auto; intros; ring.
  - cbn [fw_trace] in HT. destruct HT as [[i0 HS] HT]. apply step_split in HS.
    destruct HS as [x [y [yh [delta [sl [loss [wi [li [_ [_ [_ [_ [_ [L1 [L2 ES]]]]]]]]]]]]]]]. cbv zeta in ES. set (w2 := vadd _ _) in ES. set (l2 := _ + _) in ES. rewrite HA in ES.
    assert (LW : length w2 = length (fs_w st)). { unfold w2. rewrite vadd_length; rewrite vsub_length by auto; auto. rewrite vmix_length; [congruence|rewrite vscale_length; auto]. }
    assert (ESW : fs_self_w s = vmix ((1 + 1) / (ofN (fs_k st) + (1 + 1))) (fs_self_w st) w2) by (rewrite ES; reflexivity).
    assert (ESL : fs_self_l s = mix ((1 + 1) / (ofN (fs_k st) + (1 + 1))) (fs_self_l st) l2) by (rewrite ES; reflexivity).
    assert (EW : fs_w s = w2) by (rewrite ES; reflexivity). assert (EL : fs_l s = l2) by (rewrite ES; reflexivity). assert (EK : fs_k s = S (fs_k st)) by (rewrite ES; reflexivity).
    clearbody w2 l2. clear ES. assert (LS : length (fs_self_w s) = length (fs_w s)) by (rewrite ESW, vmix_length; congruence).
    destruct (IH s LS HT) as [A1 [A2 [A3 [A4 A5]]]]. assert (LE : last (s :: tr) st = last tr s) by (clear; revert s; induction tr as [|a tr IH]; intro s; [reflexivity|]; cbn [last] in *; destruct tr; auto).
    cbv zeta. rewrite LE. split; [congruence|]. rewrite EK in *. cbn [length]. split; [lia|]. split; [|split].
    + constructor; [congruence|]. eapply Forall_impl; [|exact A3]. cbv beta. intros; congruence.
    + intro i. replace (fs_k st + S (length tr))%nat with (S (fs_k st) + length tr)%nat by lia. rewrite A4, ESW, get1_vmix by congruence. rewrite avg_step.
      cbn [seq zipw map lsum]. rewrite EW. ring.
    + replace (fs_k st + S (length tr))%nat with (S (fs_k st) + length tr)%nat by lia. rewrite A5, ESL, avg_step. cbn [seq zipw map lsum]. rewrite EL. ring.
Qed.
Lemma fw_averages {X Y} (prm : fw_params) (m : smodel X Y) Xs Ys st tr : fw_avg prm = true -> length (fs_self_w st) = length (fs_w st) -> fs_k st = O -> tr <> [] ->
  fw_trace prm m Xs Ys st tr -> let fin := last tr st in
  length (fs_self_w fin) = length (fs_w st) /\
  (forall i, get1 (fs_self_w fin) i = linear_mean (map (fun s => get1 (fs_w s) i) tr)) /\ fs_self_l fin = linear_mean (map fs_l tr).
Proof.
  intros HA HL HK HE HT. destruct (trace_avg prm m Xs Ys HA tr st HL HT) as [A1 [_ [_ [A4 A5]]]]. rewrite HK in *. cbn [Nat.add] in *.
  assert (P : (0 < length tr)%nat) by (destruct tr; [congruence|cbn; lia]). assert (NZ := tri_neq _ P). assert (T0 : tri 0 = 0) by (unfold tri; rewrite ofN_0; field; discriminate).
  assert (SE : lsum (map ofN (seq 1 (length tr))) = tri (length tr)) by (rewrite lsum_seq; rewrite T0; cbn [Nat.add]; ring).
  split; auto. split.
  - intro i. unfold linear_mean. rewrite map_length, SE. specialize (A4 i). rewrite T0 in A4. set (t := tri (length tr)) in *. set (a := get1 _ i) in *. set (s := lsum _) in *. clearbody t a s.
    replace a with (t * a / t) by (field; auto). rewrite A4. field. auto.
  - unfold linear_mean. rewrite map_length, SE. rewrite T0 in A5. set (t := tri (length tr)) in *. set (a := fs_self_l (last tr st)) in *. set (s := lsum _) in *. set (b := fs_self_l st) in *. clearbody t a s b.
    replace a with (t * a / t) by (field; auto). rewrite A5. field. auto.
Qed.

(** ** the whole fit *)
Section fit.
  Context {X Y : Type} (T : task X Y) (d : nat) (prm : fw_params) (Xs : list X) (Ys : list Y) (bm : bmodel X Y).
  Notation SS := (combine Xs Ys). Notation C := (fw_C prm).
  Hypothesis HN : (0 < length Xs)%nat.
  Hypothesis HC : 0 <= C.
  Hypothesis HU : fw_usable T d Xs Ys bm.
  Notation bound := (bound T d prm Xs Ys).
  Lemma batch_C0 w : C = 0 -> (0 < fw_max_iter prm)%nat -> length w = d -> frank_wolfe_batch prm bm Xs Ys w = Err ZeroDivisionError.
  Proof.
    intros HZ HM Hw. unfold frank_wolfe_batch. destruct (usable_joint T d Xs Ys bm HU) as [J1 J2]. rewrite J1. cbn [bind]. destruct (fw_max_iter prm) as [|k]; [lia|]. cbn [fw_batch_loop].
    assert (G := HG T d Xs Ys bm HU). unfold fw_batch_step. cbn [fb_w]. destruct (proj2 (proj2 (proj2 (proj2 (proj1 HU)))) _ Hw) as [Yh [EY LY]]. rewrite EY. cbn [bind].
    rewrite (J2 Yh LY). cbn [bind]. destruct (proj1 (proj2 (proj2 (proj2 (proj1 HU)))) Yh LY) as [_ B2].
    assert (L1 := feat_sum_length T d Xs Ys Ys G (good_label _ _ _ _ G)). assert (L2 := feat_sum_length T d Xs Ys Yh G LY).
    unfold np_vsub. rewrite L1, L2, Nat.eqb_refl. cbn [bind]. rewrite B2. cbn [bind]. rewrite map_length, combine_length, <- (proj1 G). assert (FL := Forall2_len _ _ _ LY). rewrite <- FL, Nat.min_id.
    destruct (Nat.eqb_spec (length Xs) 0) as [Z|_]; [lia|]. cbn [negb ensure bind]. rewrite vscale_length, vsub_length by congruence. rewrite Hw, L1, Nat.eqb_refl. cbn [bind].
    rewrite HZ. replace (0 * ofN (length Xs)) with 0 by ring. reflexivity.
  Qed.
  Lemma objective_total w : length w = d -> exists o, objective_primal (bm_s bm) w Xs Ys C NSlack = Ok o.
  Proof.
    intro Hw. unfold objective_primal. destruct (mapM_total (fun p => find_constraint (bm_s bm) (fst p) (snd p) w None true) SS) as [cands EM].
    { intros p Hp. destruct (find_total T d Xs Ys (bm_s bm) w p (proj1 (proj2 (proj2 (proj1 HU)))) Hw Hp) as [yh [_ [_ E]]]. eauto. }
    rewrite EM. cbn [bind]. assert (L : length cands = length SS) by (eapply mapM_length; eauto). rewrite (LSS T d Xs Ys bm HU) in L.
    destruct (Nat.eqb_spec (length cands) 0) as [Z|_]; [lia|]. cbn [negb ensure bind]. eauto.
  Qed.
  Lemma fit_result sched w l primal curve : fw_fit prm bm Xs Ys sched None = Ok (w, l, primal, curve) ->
    exists p c o, primal = p ++ [o] /\ curve = c ++ [last c 0] /\ c <> [] /\ objective_primal (bm_s bm) w Xs Ys C NSlack = Ok o /\
      ((fw_batch prm = true /\ l = 0 /\ exists s, frank_wolfe_batch prm bm Xs Ys (vzero d) = Ok s /\ w = fb_w s /\ p = fb_primal s /\ c = fb_curve s) \/
       (fw_batch prm = false /\ exists s, frank_wolfe_bc prm bm Xs Ys sched (vzero d) 0 = Ok (s, p, c) /\ w = fs_self_w s /\ l = fs_self_l s)).
  Proof.
    intro H. unfold fw_fit in H. rewrite (proj1 (proj1 HU)) in H. apply bind_ok in H. destruct H as [[[[w1 l1] p] c] [E H]].
    apply bind_ok in H. destruct H as [o [Eo H]]. apply bind_ok in H. destruct H as [v [Ev H]]. injection H as <- <- <- <-. apply last_of_ok in Ev. destruct Ev as [NE ->].
    exists p, c, o. do 4 (split; [auto|]). destruct (fw_batch prm).
    - apply bind_ok in E. destruct E as [s [E1 E2]]. injection E2 as <- <- <- <-. left. split; auto. split; auto. exists s. auto.
    - apply bind_ok in E. destruct E as [[[s p'] c'] [E1 E2]]. injection E2 as <- <- <- <-. right. split; auto. exists s. auto.
  Qed.
  Lemma batch_ok_C sched r : fw_batch prm = true -> fw_fit prm bm Xs Ys sched None = Ok r -> C <> 0.
  Proof.
    intros HB H HZ. destruct r as [[[w l] p] c]. destruct (Nat.eq_dec (fw_max_iter prm) 0) as [M0|M0].
    - apply fit_result in H. destruct H as [p' [c' [o [_ [_ [NE [_ [[_ [_ [s [E [_ [_ ->]]]]]]|[E _]]]]]]]]]; [|congruence]. unfold frank_wolfe_batch in E. rewrite M0 in E. cbn [fw_batch_loop] in E.
      apply bind_ok in E. destruct E as [gt [_ E]]. injection E as <-. apply NE. reflexivity.
    - unfold fw_fit in H. rewrite HB, (proj1 (proj1 HU)) in H. rewrite batch_C0 in H; auto; [discriminate H|lia|apply vzero_length].
  Qed.
  Lemma fw_fit_bounds sched w l primal curve : fw_fit prm bm Xs Ys sched None = Ok (w, l, primal, curve) ->
    Forall bound curve /\
    (fw_batch prm = false -> dual_feasible T d C SS w l) /\
    (fw_batch prm = true -> exists l', dual_feasible T d C SS w l') /\
    (fw_line prm = true -> fw_batch prm = true \/ fw_avg prm = false -> ascending curve).
  Proof.
    intro H. assert (H' := H). apply fit_result in H. destruct H as [p [c [o [-> [-> [NE [_ HH]]]]]]].
    assert (HL : forall P : Qc -> Prop, Forall P c -> Forall P (c ++ [last c 0])).
    { intros P HP. apply Forall_app. split; auto. constructor; [|constructor]. rewrite Forall_forall in HP. apply HP. destruct c as [|x c] using rev_ind; [congruence|]. rewrite last_last. apply in_or_app. right. left. auto. }
    assert (HLA : ascending c -> ascending (c ++ [last c 0])).
    { intro A. apply ascending_snoc; auto. apply Forall_forall. intros v Hv. destruct (In_nth _ _ 0 Hv) as [j [Hj Ej]]. replace (last c 0) with (get1 c (length c - 1)).
      - rewrite <- Ej. apply A; lia.
      - destruct c as [|x c] using rev_ind; [congruence|]. unfold get1. rewrite last_last, app_length. cbn [length]. rewrite app_nth2 by lia. replace (_ - _)%nat with O by lia. reflexivity. }
    destruct HH as [[EB [-> [s [ES [-> [-> ->]]]]]]|[EB [s [ES [-> ->]]]]].
    - assert (CZ := batch_ok_C sched _ EB H'). destruct (batch_inv T d prm Xs Ys bm HN HC HU CZ) as [s' [ES' [[B1 [B2 B3]] _]]]. assert (s' = s) by congruence. subst s'.
      split; [apply HL; auto|]. split; [congruence|]. split; [eauto|]. intros L _. apply HLA. apply B3. auto.
    - destruct (bc_inv T d prm Xs Ys bm HN HC HU sched s p c ES) as [I1 [I2 [I3 [I4 _]]]]. split; [apply HL; auto|]. split; [intros _; apply I1|]. split; [congruence|].
      intros L [B|A]; [congruence|]. apply HLA. apply I3; auto.
  Qed.
  Lemma fw_fit_certificate sched w l p P o c D : batch_exact bm T d Xs Ys -> fw_batch prm = false ->
    fw_fit prm bm Xs Ys sched None = Ok (w, l, p ++ [P; o], c ++ [D; D]) -> P - D < fw_tol prm ->
    o = P /\ D = dual_objective C (length Xs) w l /\ exists hs, hinges T w SS hs /\ P = primal_value C w hs /\
      forall w' hs', length w' = d -> hinges T w' SS hs' -> P <= primal_value C w' hs' + fw_tol prm.
  Proof.
    intros HE EB H HT. apply fit_result in H. destruct H as [p' [c' [o' [E1 [E2 [NE [Eo HH]]]]]]].
    change (p ++ [P; o]) with (p ++ [P] ++ [o]) in E1. rewrite app_assoc in E1. apply app_inj_tail in E1. destruct E1 as [<- <-].
    change (c ++ [D; D]) with (c ++ [D] ++ [D]) in E2. rewrite app_assoc in E2. apply app_inj_tail in E2. destruct E2 as [<- _].
    destruct HH as [[E _]|[_ [s [ES [-> ->]]]]]; [congruence|]. destruct (bc_inv T d prm Xs Ys bm HN HC HU sched s _ _ ES) as [I1 [_ [_ [I4 [_ I6]]]]].
    rewrite !last_last in I6. specialize (I6 NE HT). assert (LW := self_w_length T d prm Xs Ys (HG T d Xs Ys bm HU) s I1).
    destruct (fw_gap_report T d C Xs Ys bm (fs_self_w s) (fs_self_l s) HN HU HE LW) as [hs [HH [EO [EG _]]]]. rewrite EG in I6. destruct (ok3_inj _ _ _ _ _ _ I6) as [ED [_ EP]].
    split; [congruence|]. split; [congruence|]. exists hs. split; auto. split; auto. intros w' hs' Hw' HH'. apply Forall_app in I4. destruct I4 as [_ I4]. apply Forall_cons_iff in I4. destruct I4 as [B _].
    assert (Q := B w' hs' Hw' HH'). set (a := primal_value C w' hs') in *. clearbody a. clear - Q HT. qclra.
  Qed.
  Lemma bc_loop_total sched k : (0 < fw_check prm)%nat -> (forall it, Forall (fun i => (i < length Xs)%nat) (sched it)) -> forall it st gap primal curve,
    fw_inv T d prm Xs Ys st -> (gap = None -> it = O) -> (it <> O -> curve <> []) -> exists st' p c, fw_bc_loop prm bm Xs Ys sched k it st gap primal curve = Ok (st', p, c) /\ fw_inv T d prm Xs Ys st' /\ ((0 < k + it)%nat -> c <> []).
  Proof.
    intros HK HS. induction k as [|k IH]; intros it st gap primal curve HI HG' HCV; cbn [fw_bc_loop].
    - exists st, primal, curve. split; auto. split; auto. intro Z. apply HCV. lia.
    - assert (HO := proj1 (proj2 (proj2 (proj1 HU)))). assert (G := HG T d Xs Ys bm HU). destruct (pass_total T d prm Xs Ys G HN (bm_s bm) (sched it) HO (HS it) st HI) as [st1 E]. rewrite E. cbn [bind].
      assert (I1 := pass_inv T d prm Xs Ys G HN (bm_s bm) (sched it) HO st st1 HI E). assert (LW := self_w_length T d prm Xs Ys G st1 I1).
      destruct (calc_total T d C Xs Ys bm (fs_self_w st1) (fs_self_l st1) HU LW) as [P EV]. rewrite EV. cbn [bind fst snd].
      destruct (Nat.eqb_spec (fw_check prm) 0) as [Z|_]; [lia|]. cbn [negb andb]. destruct (Nat.eqb_spec (it mod fw_check prm) 0) as [Z|Z]; cbn [bind].
      + assert (NE : forall v, curve ++ [v] <> []) by (intros v Z'; apply app_eq_nil in Z'; destruct Z'; discriminate).
        match goal with |- context [if ?b then _ else _] => destruct b end; [eauto 10|].
        destruct (IH (S it) st1 (Some (P - dual_objective C (length Xs) (fs_self_w st1) (fs_self_l st1))) (primal ++ [P]) (curve ++ [dual_objective C (length Xs) (fs_self_w st1) (fs_self_l st1)]) I1) as [st2 [p [c [E2 [I2 N2]]]]]; [discriminate|intros _; apply NE|].
        exists st2, p, c. split; auto. split; auto. intros _. apply N2. lia.
      + assert (NI : it <> O). { intros ->. apply Z. apply Nat.mod_0_l. lia. } destruct gap as [g|]; [|exfalso; auto]. destruct (Qcltb g (fw_tol prm)); [eauto 10|].
        destruct (IH (S it) st1 (Some g) primal curve I1) as [st2 [p [c [E2 [I2 N2]]]]]; [discriminate|auto|]. exists st2, p, c. split; auto. split; auto. intros _. apply N2. lia.
  Qed.
  Lemma last_of_total l : l <> [] -> exists v, last_of l = Ok v.
  Proof. intro H. unfold last_of. destruct l as [|x l] using rev_ind; [congruence|]. rewrite rev_app_distr. cbn. eauto. Qed.
  Lemma fw_fit_total sched : (0 < fw_max_iter prm)%nat -> (if fw_batch prm then C <> 0 else (0 < fw_check prm)%nat /\ forall it, Forall (fun i => (i < length Xs)%nat) (sched it)) ->
    exists r, fw_fit prm bm Xs Ys sched None = Ok r.
  Proof.
    intros HM HB. assert (G := HG T d Xs Ys bm HU). unfold fw_fit. rewrite (proj1 (proj1 HU)). destruct (fw_batch prm).
    - destruct (batch_inv T d prm Xs Ys bm HN HC HU HB) as [s [ES [[B1 _] NE]]]. rewrite ES. cbn [bind].
      destruct (objective_total (fb_w s)) as [o Eo]. { eapply feasible_length; [apply good_sized; exact G|exact B1]. } rewrite Eo. cbn [bind].
      destruct (last_of_total _ (NE HM)) as [v Ev]. rewrite Ev. cbn [bind]. eauto.
    - destruct HB as [HK HS]. unfold frank_wolfe_bc. rewrite (proj1 (proj1 HU)).
      destruct (bc_loop_total sched (fw_max_iter prm) HK HS 0 (fw_bc_start d (length Xs) (vzero d) 0) None [] []) as [s [p [c [E [I NE]]]]]; [apply start_inv; exact G|auto|congruence|].
      rewrite E. cbn [bind]. destruct (objective_total (fs_self_w s)) as [o Eo]; [eapply self_w_length; eauto|]. rewrite Eo. cbn [bind].
      destruct (last_of_total c) as [v Ev]; [apply NE; lia|]. rewrite Ev. cbn [bind]. eauto.
  Qed.
  (** ** failures *)
  Lemma fw_no_iterations sched old : fw_max_iter prm = O -> (forall w l, old = Some (w, l) -> length w = d) -> fw_fit prm bm Xs Ys sched old = Err IndexError.
  Proof.
    intros HM HO. unfold fw_fit. set (wl := match old with Some o => o | None => _ end). destruct wl as [w l] eqn:EWL.
    assert (Hw : length w = d). { unfold wl in EWL. destruct old as [[w1 l1]|]; injection EWL as <- <-; [eapply HO; eauto|]. rewrite vzero_length. apply HU. }
    destruct (objective_total w Hw) as [o Eo]. unfold frank_wolfe_batch, frank_wolfe_bc. rewrite HM. rewrite (proj1 (usable_joint T d Xs Ys bm HU)). destruct (fw_batch prm); cbn [bind fw_batch_loop fw_bc_loop fb_w fb_curve fs_self_w fw_bc_start]; rewrite Eo; reflexivity.
  Qed.
  Lemma fw_never_checked sched : fw_batch prm = false -> fw_check prm = O -> (0 < fw_max_iter prm)%nat -> Forall (fun i => (i < length Xs)%nat) (sched O) ->
    fw_fit prm bm Xs Ys sched None = Err UnboundLocalError.
  Proof.
    intros HB HK HM HS. assert (G := HG T d Xs Ys bm HU). unfold fw_fit. rewrite HB. unfold frank_wolfe_bc. rewrite (proj1 (proj1 HU)). destruct (fw_max_iter prm) as [|k]; [lia|]. cbn [fw_bc_loop].
    destruct (pass_total T d prm Xs Ys G HN (bm_s bm) (sched O) (proj1 (proj2 (proj2 (proj1 HU)))) HS _ (start_inv T d prm Xs Ys G)) as [st1 E]. rewrite E. cbn [bind]. rewrite HK. reflexivity.
  Qed.
  Lemma fw_batch_C0 sched : fw_batch prm = true -> C = 0 -> (0 < fw_max_iter prm)%nat -> fw_fit prm bm Xs Ys sched None = Err ZeroDivisionError.
  Proof. intros HB HZ HM. unfold fw_fit. rewrite HB, (proj1 (proj1 HU)), batch_C0; auto. apply vzero_length. Qed.
End fit.

(** a model whose batch_joint_feature cannot be called the way the learner does is never trained *)
Lemma fw_needs_batch {X Y} (prm : fw_params) (bm : bmodel X Y) Xs Ys sched old r :
  (forall w l C, exists e, calc_dual_gap C bm Xs Ys w l = Err e) -> (forall Yh, (exists e, bm_joint bm Xs Ys (Some Ys) = Err e) \/ exists e, bm_joint bm Xs Yh None = Err e) ->
  fw_fit prm bm Xs Ys sched old = Ok r -> False.
Proof.
  intros HG HB H. unfold fw_fit in H. set (wl := match old with Some o => o | None => _ end) in H. destruct wl as [w l]. apply bind_ok in H. destruct H as [[[[w1 l1] p] c] [E H]].
  apply bind_ok in H. destruct H as [o [_ H]]. apply bind_ok in H. destruct H as [v [Ev _]]. apply last_of_ok in Ev. destruct Ev as [NE _]. destruct (fw_batch prm).
  - apply bind_ok in E. destruct E as [s [E E']]. injection E' as _ _ _ <-. unfold frank_wolfe_batch in E. apply bind_ok in E. destruct E as [gt [Eg E]].
    destruct (fw_max_iter prm) as [|k]; cbn [fw_batch_loop] in E. { injection E as <-. apply NE. reflexivity. }
    apply bind_ok in E. destruct E as [q [E _]]. unfold fw_batch_step in E. apply bind_ok in E. destruct E as [Yh [_ E]]. apply bind_ok in E. destruct E as [f [Ef _]].
    destruct (HB Yh) as [[e1 E1]|[e1 E1]]; congruence.
  - apply bind_ok in E. destruct E as [[[s p'] c'] [E E']]. injection E' as _ _ _ <-. unfold frank_wolfe_bc in E.
    assert (Q : forall k it st, fw_bc_loop prm bm Xs Ys sched k it st None [] [] = Ok (s, p', c') -> c' = []).
    { intros k it st E'. destruct k as [|k]; cbn [fw_bc_loop] in E'; [congruence|]. apply bind_ok in E'. destruct E' as [st1 [_ E']]. apply bind_ok in E'. destruct E' as [[[g1 p1] c1] [E1 E']].
      match type of E1 with (if ?b then _ else _) = _ => destruct b end.
      - destruct (HG (fs_self_w st1) (fs_self_l st1) (fw_C prm)) as [e Ee]. rewrite Ee in E1. discriminate E1.
      - injection E1 as <- <- <-. discriminate E'. }
    apply NE. eapply Q. exact E.
Qed.
Lemma fw_binary prm F Xs Ys sched old r : fw_fit prm (bc_bmodel F) Xs Ys sched old = Ok r -> False.
Proof.
  apply fw_needs_batch.
  - intros w l C. exists TypeError. reflexivity.
  - intro Yh. left. exists TypeError. reflexivity.
Qed.
Lemma fw_binary_batch prm F Xs Ys sched old : fw_batch prm = true -> fw_fit prm (bc_bmodel F) Xs Ys sched old = Err TypeError.
Proof. intro HB. unfold fw_fit. destruct old as [[w l]|]; rewrite HB; reflexivity. Qed.
Lemma fw_multiclass_rescale prm m Xs Ys sched old r : mc_rescale m = true -> fw_fit prm (mc_bmodel m) Xs Ys sched old = Ok r -> False.
Proof.
  intro HR. assert (E : forall Yh, bm_joint (mc_bmodel m) Xs Yh None = Err ValueError). { intro Yh. cbn [mc_bmodel bm_joint]. unfold mc_batch_joint_feature. rewrite HR. reflexivity. }
  apply fw_needs_batch.
  - intros w l C. unfold calc_dual_gap. destruct (bm_joint (mc_bmodel m) Xs Ys (Some Ys)) as [gt|e]; cbn [bind]; [|eauto].
    destruct (bm_laug (mc_bmodel m) Xs Ys w) as [Yh|e]; cbn [bind]; [|eauto]. rewrite E. cbn [bind]. eauto.
  - intro Yh. right. eauto.
Qed.

(** ** models that can be trained *)
Lemma base_fw_usable {X Y} (T : task X Y) d Xs Ys (m : smodel X Y) : length Xs = length Ys -> sm_size m = d -> sm_rescale m = false -> oracle_ok m T d (combine Xs Ys) ->
  fw_usable T d Xs Ys (base_bmodel m).
Proof.
  intros HL HS HR HO. split; [apply base_batch_ok; auto|]. split; [exact HR|]. cbn [base_bmodel bm_joint]. rewrite HR. reflexivity.
Qed.
Lemma mc_fw_usable m Xs Ys : mc_rescale m = false -> (0 < mc_states m)%nat -> length (mc_cw m) = mc_states m ->
  (mc_uniform m = true -> forall s, (s < mc_states m)%nat -> get1 (mc_cw m) s = 1) ->
  Forall (fun x => length x = mc_features m) Xs -> length Xs = length Ys -> Forall (fun y => (y < mc_states m)%nat) Ys ->
  fw_usable (mc_task (mc_states m) (mc_features m) (get1 (mc_cw m))) (mc_size m) Xs Ys (mc_bmodel m) /\
  batch_exact (mc_bmodel m) (mc_task (mc_states m) (mc_features m) (get1 (mc_cw m))) (mc_size m) Xs Ys.
Proof.
  intros HR H1 H2 H3 H4 H5 H6. assert (BE := mc_batch_exact m Xs Ys HR H1 H2 H3 H4 H5 H6). split; auto. split; [apply BE|]. split; [exact HR|].
  cbn [mc_bmodel bm_joint]. unfold mc_batch_joint_feature. rewrite HR. reflexivity.
Qed.

(** ** statements of the properties *)
Lemma oracle_good {X Y} (T : task X Y) d Xs Ys m : length Xs = length Ys -> oracle_ok m T d (combine Xs Ys) -> good T d Xs Ys.
Proof.
  intros HL HO. split; auto. intros p Hp. destruct (HO p Hp) as [[H1 [H2 H3]] _]. split; auto. split; auto. intros y' Hy'. apply H3; auto.
Qed.
Lemma fw_trace_inv {X Y} (T : task X Y) d prm (m : smodel X Y) Xs Ys tr : length Xs = length Ys -> (0 < length Xs)%nat -> oracle_ok m T d (combine Xs Ys) ->
  fw_trace prm m Xs Ys (fw_bc_start d (length Xs) (vzero d) 0) tr ->
  Forall (fun st => length (fs_wmat st) = length Xs /\ length (fs_lmat st) = length Xs /\
    Forall2 (block_point T d (fw_C prm) (length Xs)) (combine Xs Ys) (combine (fs_wmat st) (fs_lmat st)) /\
    fs_w st = vsum d (fs_wmat st) /\ fs_l st = lsum (fs_lmat st) /\
    dual_feasible T d (fw_C prm) (combine Xs Ys) (fs_w st) (fs_l st) /\
    dual_feasible T d (fw_C prm) (combine Xs Ys) (fs_self_w st) (fs_self_l st)) tr.
Proof.
  intros HL HN HO HT. assert (G := oracle_good T d Xs Ys m HL HO). assert (I0 := start_inv T d prm Xs Ys G). revert HT I0. generalize (fw_bc_start d (length Xs) (vzero d) 0).
  induction tr as [|s tr IH]; intros st HT HI; [constructor|]. destruct HT as [[i HS] HT]. assert (I1 := step_inv_ok T d prm Xs Ys G HN m i st s HO HI HS).
  constructor; [|eapply IH; eauto]. assert (IF := inv_feasible T d prm Xs Ys s I1). destruct I1 as [J1 [J2 [J3 [J4 [J5 J6]]]]]. rewrite (SS_length T d Xs Ys G) in J3. tauto.
Qed.
Lemma fw_weak' {X Y} (T : task X Y) d C Xs Ys (m : smodel X Y) w l w' hs : length Xs = length Ys -> (0 < length Xs)%nat -> oracle_ok m T d (combine Xs Ys) -> 0 <= C ->
  dual_feasible T d C (combine Xs Ys) w l -> length w' = d -> hinges T w' (combine Xs Ys) hs -> dual_objective C (length Xs) w l <= primal_value C w' hs.
Proof.
  intros HL HN HO HC HF Hw HH. assert (G := oracle_good T d Xs Ys m HL HO). assert (E := SS_length T d Xs Ys G). rewrite <- E. eapply (fw_weak T d); eauto; [lia|]. apply good_sized; auto.
Qed.
Lemma fw_batch_monotone {X Y} (T : task X Y) d prm Xs Ys (bm : bmodel X Y) it st st' gap : (0 < length Xs)%nat -> 0 < fw_C prm -> fw_usable T d Xs Ys bm -> fw_line prm = true ->
  length (fb_w st) = d -> fw_batch_step prm bm Xs Ys (feat_sum T d Xs Ys) it st = Ok (st', gap) ->
  dual_objective (fw_C prm) (length Xs) (fb_w st) (fb_l st) <= dual_objective (fw_C prm) (length Xs) (fb_w st') (fb_l st').
Proof.
  intros HN HC HU HL Hw H. assert (CZ : fw_C prm <> 0) by (intro Z; rewrite Z in HC; discriminate HC).
  destruct (batch_step T d prm Xs Ys bm HN (Qclt_le_weak _ _ HC) HU it st CZ Hw) as [Yh [g [gap' [_ [_ [_ [_ [_ [ES SL]]]]]]]]]. cbv zeta in *.
  rewrite ES in H. injection H as <- _. cbn [fb_w fb_l]. exact (proj1 (SL HL)).
Qed.

(** ** examples *)
Definition ex11_prm (batch avg : bool) := FWParams 1 5 (Q2Qc (1 # 1000)) batch true 1 avg.
Definition ex11_sched : nat -> list nat := fun _ => [0%nat].
(** two fits of the same learner *)
Lemma ex11_refit_check :
  match fw_fit (ex11_prm false false) ex10_bm ex9_X ex9_Y ex11_sched None with
  | Ok (w, l, _, _) =>
      match fw_fit (ex11_prm false false) ex10_bm ex9_X [1%nat] ex11_sched (Some (w, l)) with
      | Ok (_, _, _, c) => negb (length c =? 0)%nat && Qcltb (1 / (1 + 1)) (last c 0)
      | Err _ => false
      end
  | Err _ => false
  end = true.
Proof. vm_compute. reflexivity. Qed.
Lemma ex11_hinge : hinges ex9_task [- (1 / (1 + 1)); 1 / (1 + 1)] (combine ex9_X [1%nat]) [0].
Proof.
  constructor; [|constructor]. split.
  - exists 1%nat. split; [cbn; lia|]. apply Qc_is_canon. vm_compute. reflexivity.
  - intros y' Hy. cbn in Hy. destruct y' as [|[|y']]; [| |exfalso; lia]; vm_compute; discriminate.
Qed.
Lemma fw_refit_bound_refuted :
  exists w l p c w2 l2 p2 c2 v w' hs,
    fw_fit (ex11_prm false false) ex10_bm ex9_X ex9_Y ex11_sched None = Ok (w, l, p, c) /\
    fw_fit (ex11_prm false false) ex10_bm ex9_X [1%nat] ex11_sched (Some (w, l)) = Ok (w2, l2, p2, c2) /\
    In v c2 /\ hinges ex9_task w' (combine ex9_X [1%nat]) hs /\ length w' = 2%nat /\ primal_value 1 w' hs < v.
Proof.
  assert (K := ex11_refit_check).
  destruct (fw_fit (ex11_prm false false) ex10_bm ex9_X ex9_Y ex11_sched None) as [[[[w l] p] c]|] eqn:E1; [|discriminate K].
  destruct (fw_fit (ex11_prm false false) ex10_bm ex9_X [1%nat] ex11_sched (Some (w, l))) as [[[[w2 l2] p2] c2]|] eqn:E2; [|discriminate K].
  apply andb_prop in K. destruct K as [K1 K2]. exists w, l, p, c, w2, l2, p2, c2, (last c2 0), [- (1 / (1 + 1)); 1 / (1 + 1)], [0].
  split; [reflexivity|]. split; [exact E2|]. split; [|split; [exact ex11_hinge|split; [reflexivity|]]].
  - destruct c2 as [|x c2] using rev_ind; [discriminate K1|]. rewrite last_last. apply in_or_app. right. left. auto.
  - apply Qclt_trans with (1 / (1 + 1)); [vm_compute; reflexivity|]. unfold Qcltb in K2. apply Bool.negb_true_iff, Qcleb_gt in K2. exact K2.
Qed.

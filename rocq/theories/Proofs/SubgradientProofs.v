From Coq Require Import ZArith.
From Verif Require Import Model.Subgradient Proofs.Arrays Proofs.LossProofs Proofs.CRFProofs Proofs.LearnerProofs Proofs.QPProofs
  Proofs.NSlackProofs5 Proofs.OneSlackProofs Proofs.OneSlackProofs2 Spec.SubgradientSpec.

(** ** one step *)
Lemma vadd_ok a b r : np_vadd a b = Ok r -> length a = length b /\ r = vadd a b.
Proof. unfold np_vadd. destruct (Nat.eqb_spec (length a) (length b)); intro H; [injection H as <-; auto|discriminate H]. Qed.
Lemma vsub_ok a b r : np_vsub a b = Ok r -> length a = length b /\ r = vsub a b.
Proof. unfold np_vsub. destruct (Nat.eqb_spec (length a) (length b)); intro H; [injection H as <-; auto|discriminate H]. Qed.
Lemma ensure_ok' b e (u : unit) : ensure b e = Ok u -> b = true.
Proof. unfold ensure. destruct b; [auto|discriminate]. Qed.

Lemma rate_ok prm lr t r : sg_rate prm lr t = Ok r -> r = rate_at prm lr t /\ (sg_decay prm <> O -> ofN t + sg_t0 prm <> 0).
Proof.
  unfold sg_rate, rate_at. destruct (Nat.eqb_spec (sg_decay prm) 0) as [E|E].
  - intro H. injection H as <-. split; [reflexivity|congruence].
  - intro H. apply bind_ok in H. destruct H as [u [A H]]. injection H as <-. split; [reflexivity|]. intros _.
    apply ensure_ok' in A. destruct (Qceqb_spec (ofN t + sg_t0 prm) 0); [discriminate A|auto].
Qed.
Lemma rate_total prm lr t : (sg_decay prm <> O -> ofN t + sg_t0 prm <> 0) -> sg_rate prm lr t = Ok (rate_at prm lr t).
Proof.
  unfold sg_rate, rate_at. destruct (Nat.eqb_spec (sg_decay prm) 0) as [E|E]; [reflexivity|]. intro H. specialize (H E).
  destruct (Qceqb_spec (ofN t + sg_t0 prm) 0); [congruence|reflexivity].
Qed.
Definition new_grad (prm : sg_params) (n : nat) (dj : list Qc) (st : sg_state) : list Qc :=
  vadd (vscale (1 - sg_momentum prm) (vsub dj (vscale (/ (sg_C prm * ofN n)) (sg_w st)))) (vscale (sg_momentum prm) (sg_grad st)).
Lemma solve_ok prm n lr dj st st' : solve_subgradient prm n lr dj st = Ok st' ->
  can_step prm n (sg_t st) /\ length dj = length (sg_w st) /\ length (sg_grad st) = length (sg_w st) /\
  sg_grad st' = new_grad prm n dj st /\
  sg_w st' = vadd (sg_w st) (vscale (rate_at prm lr (sg_t st)) (new_grad prm n dj st)) /\
  sg_self st' = sg_expose (sg_avg prm) (sg_t st) (sg_self st) (sg_w st') /\ sg_t st' = S (sg_t st).
Proof.
  unfold solve_subgradient. intro H. apply bind_ok in H. destruct H as [u [A H]]. apply ensure_ok' in A.
  apply bind_ok in H. destruct H as [g [B H]]. apply vsub_ok in B. destruct B as [B ->]. rewrite vscale_length in B.
  apply bind_ok in H. destruct H as [go [D H]]. apply vadd_ok in D. destruct D as [D ->]. rewrite !vscale_length in D.
  rewrite vsub_length in D by (rewrite vscale_length; auto).
  apply bind_ok in H. destruct H as [r [E H]]. apply rate_ok in E. destruct E as [-> E].
  apply bind_ok in H. destruct H as [w [F H]]. apply vadd_ok in F. destruct F as [F ->]. injection H as <-.
  cbn [sg_w sg_self sg_grad sg_t]. unfold can_step. repeat split; auto; try congruence.
  destruct (Qceqb_spec (sg_C prm * ofN n) 0); [discriminate A|auto].
Qed.
Lemma new_grad_length prm n dj st : length dj = length (sg_w st) -> length (sg_grad st) = length (sg_w st) ->
  length (new_grad prm n dj st) = length (sg_w st).
Proof.
  intros A B. unfold new_grad. assert (L : length (vsub dj (vscale (/ (sg_C prm * ofN n)) (sg_w st))) = length (sg_w st)) by (rewrite vsub_length; rewrite ?vscale_length; auto).
  rewrite vadd_length; rewrite !vscale_length; congruence.
Qed.
Lemma solve_total prm n lr dj st : can_step prm n (sg_t st) -> length dj = length (sg_w st) -> length (sg_grad st) = length (sg_w st) ->
  exists st', solve_subgradient prm n lr dj st = Ok st'.
Proof.
  intros [A B] C D. unfold solve_subgradient. destruct (Qceqb_spec (sg_C prm * ofN n) 0) as [E|_]; [congruence|]. cbn [negb ensure bind].
  unfold np_vsub, np_vadd. rewrite vscale_length, C, Nat.eqb_refl. cbn [bind].
  assert (L : length (vsub dj (vscale (/ (sg_C prm * ofN n)) (sg_w st))) = length (sg_w st)) by (rewrite vsub_length; rewrite ?vscale_length; auto).
  rewrite !vscale_length, L, D, Nat.eqb_refl. cbn [bind]. rewrite rate_total by auto. cbn [bind].
  rewrite vscale_length. rewrite vadd_length by (rewrite !vscale_length; congruence). rewrite vscale_length, L, Nat.eqb_refl. cbn [bind]. eauto.
Qed.
Lemma expose_length a t s w : length s = length w -> length (sg_expose a t s w) = length w.
Proof. intro H. destruct a; cbn [sg_expose]; auto; rewrite vadd_length; rewrite !vscale_length; auto. Qed.
Lemma solve_shaped prm n lr dj d st st' : shaped d st -> solve_subgradient prm n lr dj st = Ok st' -> shaped d st' /\ length dj = d.
Proof.
  intros [H1 [H2 H3]] H. apply solve_ok in H. destruct H as [_ [L1 [L2 [E1 [E2 [E3 _]]]]]].
  assert (LG := new_grad_length prm n dj st L1 L2).
  assert (LW : length (sg_w st') = d) by (rewrite E2, vadd_length; rewrite ?vscale_length; congruence).
  split; [|congruence]. split; [exact LW|]. split.
  - rewrite E3, expose_length; congruence.
  - rewrite E1. congruence.
Qed.

(** ** traces *)
Lemma last_app {A} (l1 l2 : list A) x : last (l1 ++ l2) x = last l2 (last l1 x).
Proof.
  revert x. induction l1 as [|a l IH]; intro x; [reflexivity|]. cbn [app].
  assert (H : forall (l : list A) a x, last (a :: l) x = last l a).
  { clear. induction l as [|b l IH]; intros a x; [reflexivity|]. change (last (a :: b :: l) x) with (last (b :: l) x). rewrite !IH. reflexivity. }
  rewrite !H. apply IH.
Qed.
Lemma last_cons {A} (l : list A) a x : last (a :: l) x = last l a.
Proof. change (a :: l) with ([a] ++ l). rewrite last_app. reflexivity. Qed.
Lemma trace_app prm n lr tr1 : forall st tr2, sg_trace prm n lr st tr1 -> sg_trace prm n lr (last tr1 st) tr2 -> sg_trace prm n lr st (tr1 ++ tr2).
Proof.
  induction tr1 as [|s r IH]; intros st tr2 H1 H2; [exact H2|]. destruct H1 as [A B]. cbn [app]. split; [exact A|]. apply IH; [exact B|].
  rewrite last_cons in H2. exact H2.
Qed.
(** reachable in any number of steps *)
Definition reach prm n lr st st' : Prop := exists tr, sg_trace prm n lr st tr /\ last tr st = st'.
Lemma reach_refl prm n lr st : reach prm n lr st st.
Proof. exists []. split; [exact I|reflexivity]. Qed.
Lemma reach_trans prm n lr a b c : reach prm n lr a b -> reach prm n lr b c -> reach prm n lr a c.
Proof. intros [t1 [A <-]] [t2 [B <-]]. exists (t1 ++ t2). split; [apply trace_app; auto|apply last_app]. Qed.
Lemma reach_step prm n lr dj a b : solve_subgradient prm n lr dj a = Ok b -> reach prm n lr a b.
Proof. intro H. exists [b]. split; [split; [eauto|exact I]|reflexivity]. Qed.

Lemma online_step_solve {X Y} prm (m : smodel X Y) n lr p st st' b : sg_online_step prm m n lr p st = Ok (st', b) ->
  exists yh dj s l, find_constraint m (fst p) (snd p) (sg_w st) None true = Ok (yh, dj, s, l) /\
    solve_subgradient prm n lr dj st = Ok st' /\ b = Qcltb 0 s.
Proof.
  unfold sg_online_step. intro H. apply bind_ok in H. destruct H as [[[[yh dj] s] l] [A H]]. apply bind_ok in H. destruct H as [st1 [B H]].
  injection H as <- <-. exists yh, dj, s, l. auto.
Qed.
Lemma online_reach {X Y} prm (m : smodel X Y) n lr S : forall st pos r, sg_online prm m n lr S st pos = Ok r -> reach prm n lr st (fst r).
Proof.
  induction S as [|p S IH]; intros st pos r H; cbn [sg_online] in H.
  - injection H as <-. apply reach_refl.
  - apply bind_ok in H. destruct H as [[st1 b] [A H]]. apply online_step_solve in A. destruct A as [yh [dj [s [l [_ [A _]]]]]].
    eapply reach_trans; [eapply reach_step; exact A|]. eapply IH. exact H.
Qed.
Lemma mini_step_solve {X Y} prm (bm : bmodel X Y) n lr B st st' : sg_mini_step prm bm n lr B st = Ok st' ->
  exists dj, solve_subgradient prm n lr dj st = Ok st'.
Proof.
  unfold sg_mini_step. intro H. do 7 (apply bind_ok in H; destruct H as [? [_ H]]). eexists. exact H.
Qed.
Lemma mini_reach {X Y} prm (bm : bmodel X Y) n lr b Bs : forall st pos r, sg_mini prm bm n lr b Bs st pos = Ok r -> reach prm n lr st (fst r).
Proof.
  induction Bs as [|B Bs IH]; intros st pos r H; cbn [sg_mini] in H.
  - injection H as <-. apply reach_refl.
  - apply bind_ok in H. destruct H as [st1 [A H]]. apply mini_step_solve in A. destruct A as [dj A].
    eapply reach_trans; [eapply reach_step; exact A|]. eapply IH. exact H.
Qed.
Lemma par_reach {X Y} prm (m : smodel X Y) n lr Bs : forall st pos r, sg_par prm m n lr Bs st pos = Ok r -> reach prm n lr st (fst r).
Proof.
  induction Bs as [|B Bs IH]; intros st pos r H; cbn [sg_par] in H.
  - injection H as <-. apply reach_refl.
  - apply bind_ok in H. destruct H as [[st1 k] [A H]]. unfold sg_par_step in A. apply bind_ok in A. destruct A as [cs [_ A]].
    apply bind_ok in A. destruct A as [q [_ A]]. apply bind_ok in A. destruct A as [st2 [A A']]. injection A' as <- <-.
    eapply reach_trans; [eapply reach_step; exact A|]. eapply IH. exact H.
Qed.
Lemma epoch_reach {X Y} prm (bm : bmodel X Y) lr S st r : sg_epoch prm bm lr S st = Ok r -> reach prm (length S) lr st (fst r).
Proof.
  unfold sg_epoch. destruct (sg_jobs prm =? 1)%Z.
  - unfold sg_sequential. destruct (sg_batch prm) as [b|]; [|apply online_reach]. destruct (b =? 1)%Z; [apply online_reach|].
    intro H. apply bind_ok in H. destruct H as [Bs [_ H]]. eapply mini_reach. exact H.
  - unfold sg_parallel. intro H. apply bind_ok in H. destruct H as [_ [_ H]]. apply bind_ok in H. destruct H as [sl [_ H]]. eapply par_reach. exact H.
Qed.
Lemma loop_reach {X Y} prm (bm : bmodel X Y) lr shuf k : (forall it S, length (shuf it S) = length S) ->
  forall it S st c st' c' S', sg_loop prm bm lr shuf k it S st c = Ok (st', c', S') -> reach prm (length S) lr st st' /\ length S' = length S.
Proof.
  intro HS. induction k as [|k IH]; intros it S st c st' c' S' H; cbn [sg_loop] in H.
  - injection H as <- <- <-. split; [apply reach_refl|reflexivity].
  - apply bind_ok in H. destruct H as [[st1 pos] [A H]]. assert (R := epoch_reach _ _ _ _ _ _ A). rewrite HS in R. cbn [fst snd] in *.
    destruct ((pos =? 0)%Z && sg_break prm)%bool.
    + injection H as <- <- <-. split; [exact R|apply HS].
    + apply bind_ok in H. destruct H as [o [_ H]]. apply IH in H. rewrite HS in H. destruct H as [H1 H2]. split; [|exact H2]. eapply reach_trans; eauto.
Qed.

(** ** averaging *)
Lemma total_S c n : total c (S n) = total c n + c (S n).
Proof. unfold total. rewrite seq_S, map_app, lsum_app. cbn [map lsum]. replace (1 + n)%nat with (S n) by lia. ring. Qed.
Lemma total_linear n : total (avg_weight AvgLinear) n = ofN n * (ofN n + 1) / (1 + 1).
Proof.
  induction n as [|n IH]; [unfold total; cbn [seq map lsum]; rewrite ofN_0; unfold Qcdiv; ring|]. rewrite total_S, IH. cbn [avg_weight]. rewrite ofN_S. set (a := ofN n). clearbody a. field. discriminate.
Qed.
Lemma ofN6 : ofN 6 = 1 + 1 + 1 + 1 + 1 + 1. Proof. rewrite !ofN_S, ofN_0. ring. Qed.
Lemma ofN3 : ofN 3 = 1 + 1 + 1. Proof. rewrite !ofN_S, ofN_0. ring. Qed.
Lemma total_squared n : total (avg_weight AvgSquared) n = ofN n * (ofN n + 1) * ((1 + 1) * ofN n + 1) / ofN 6.
Proof.
  rewrite ofN6. assert (NZ : 1 + 1 + 1 + 1 + 1 + 1 <> 0) by discriminate. set (six := 1 + 1 + 1 + 1 + 1 + 1) in *.
  induction n as [|n IH]; [unfold total; cbn [seq map lsum]; rewrite ofN_0; unfold Qcdiv; ring|]. rewrite total_S, IH. cbn [avg_weight]. rewrite ofN_S. set (a := ofN n). clearbody a.
  transitivity ((a * (a + 1) * ((1 + 1) * a + 1) + six * ((1 + a) * (1 + a))) / six); [field; exact NZ|].
  f_equal. unfold six. ring.
Qed.
Lemma ofN_plus_pos t x : 0 < x -> ofN t + x <> 0.
Proof. intros H E. assert (P := ofN_nonneg t). assert (Q : 0 < ofN t + x) by qclra. rewrite E in Q. discriminate Q. Qed.
Lemma rho_total a t : a <> AvgNone -> sg_rho a t * total (avg_weight a) (S t) = avg_weight a (S t).
Proof.
  intro H. destruct a; [congruence| |].
  - rewrite total_linear. cbn [avg_weight sg_rho]. rewrite ofN_S.
    assert (N1 : ofN t + (1 + 1) <> 0) by (apply ofN_plus_pos; reflexivity). set (k := ofN t) in *. clearbody k.
    assert (N2 : 1 + 1 <> 0) by discriminate. set (two := 1 + 1) in *. replace (1 + k + 1) with (k + two) by (unfold two; ring). clearbody two.
    field. split; auto.
  - rewrite total_squared. cbn [avg_weight sg_rho]. rewrite (ofN_S t).
    assert (N1 : ofN t + (1 + 1) <> 0) by (apply ofN_plus_pos; reflexivity).
    assert (N3 : (1 + 1) * ofN t + ofN 3 <> 0).
    { rewrite ofN3. intro E. assert (P := ofN_nonneg t). assert (Q : 0 < ofN t + ofN t + (1 + 1 + 1)) by (apply Qclt_le_trans with (1 + 1 + 1); [reflexivity|qclra]).
      replace (ofN t + ofN t + (1 + 1 + 1)) with ((1 + 1) * ofN t + (1 + 1 + 1)) in Q by ring. rewrite E in Q. discriminate Q. }
    assert (N6 : ofN 6 <> 0) by discriminate. set (six := ofN 6) in *.
    set (u := (1 + 1) * ofN t + ofN 3) in *. set (v := ofN t + (1 + 1)) in *.
    replace ((1 + 1) * (1 + ofN t) + 1) with u by (unfold u; rewrite ofN3; ring). replace (1 + ofN t + 1) with v by (unfold v; ring).
    set (k := ofN t). clearbody k u v six. field. repeat split; auto.
Qed.
Lemma total_pos a n : a <> AvgNone -> (0 < n)%nat -> total (avg_weight a) n <> 0.
Proof.
  intros H Hn. assert (P : forall n, 0 <= total (avg_weight a) n /\ ((0 < n)%nat -> 0 < total (avg_weight a) n)).
  { clear n Hn. induction n as [|n [IH _]].
    - split; [apply Qcle_refl|lia].
    - assert (Q : 0 < total (avg_weight a) (S n)).
      { rewrite total_S. assert (B : 0 < avg_weight a (S n)).
        { assert (B := ofN_pos (S n) ltac:(lia)). destruct a; cbn [avg_weight]; [congruence|exact B|apply Qcmult_pos; exact B]. }
        qclra. }
      split; [apply Qclt_le_weak; exact Q|auto]. }
  intro E. destruct (P n) as [_ Q]. specialize (Q Hn). rewrite E in Q. discriminate Q.
Qed.
Lemma expose_step a t s w i : a <> AvgNone -> length s = length w ->
  total (avg_weight a) (S t) * get1 (sg_expose a t s w) i = total (avg_weight a) t * get1 s i + avg_weight a (S t) * get1 w i.
Proof.
  intros H L. assert (E : sg_expose a t s w = vadd (vscale (1 - sg_rho a t) s) (vscale (sg_rho a t) w)) by (destruct a; [congruence|reflexivity|reflexivity]).
  rewrite E, get1_vadd by (rewrite !vscale_length; auto). rewrite !get1_vscale. assert (R := rho_total a t H). rewrite total_S in *.
  set (r := sg_rho a t) in *. set (x := total (avg_weight a) t) in *. set (y := avg_weight a (S t)) in *.
  set (g := get1 s i). set (h := get1 w i). clearbody r x y g h.
  replace ((x + y) * ((1 - r) * g + r * h)) with ((x + y - r * (x + y)) * g + r * (x + y) * h) by ring. rewrite R. ring.
Qed.
Lemma trace_none prm n lr : sg_avg prm = AvgNone -> forall tr st, sg_self st = sg_w st -> sg_trace prm n lr st tr ->
  sg_self (last tr st) = sg_w (last tr st) /\ sg_t (last tr st) = (sg_t st + length tr)%nat.
Proof.
  intro HA. induction tr as [|s tr IH]; intros st HE H; [cbn; auto|]. destruct H as [[dj A] H]. apply solve_ok in A. destruct A as [_ [_ [_ [_ [_ [E3 E4]]]]]].
  rewrite HA in E3. cbn [sg_expose] in E3. rewrite last_cons. destruct (IH s E3 H) as [B1 B2]. split; [exact B1|]. rewrite B2, E4. cbn [length]. lia.
Qed.
Lemma trace_avg prm n lr : sg_avg prm <> AvgNone -> let c := avg_weight (sg_avg prm) in
  forall tr st, length (sg_self st) = length (sg_w st) -> sg_trace prm n lr st tr ->
  let fin := last tr st in
  sg_t fin = (sg_t st + length tr)%nat /\ length (sg_self fin) = length (sg_w st) /\
  forall i, total c (sg_t st + length tr) * get1 (sg_self fin) i =
    total c (sg_t st) * get1 (sg_self st) i + weighted_sum c (S (sg_t st)) (map (fun s => get1 (sg_w s) i) tr).
Proof.
  intros HA c. induction tr as [|s tr IH]; intros st HL H.
  - cbn [last length]. rewrite Nat.add_0_r. split; [reflexivity|]. split; [exact HL|]. intro i. unfold weighted_sum. cbn. ring.
  - destruct H as [[dj A] H]. apply solve_ok in A. destruct A as [_ [L1 [L2 [E1 [E2 [E3 E4]]]]]].
    assert (LW : length (sg_w s) = length (sg_w st)) by (rewrite E2, vadd_length; rewrite ?vscale_length, ?new_grad_length; auto).
    assert (LS : length (sg_self s) = length (sg_w s)) by (rewrite E3, expose_length; congruence).
    cbv zeta. rewrite last_cons. destruct (IH s LS H) as [B1 [B2 B3]]. rewrite E4 in *. cbn [length].
    replace (sg_t st + S (length tr))%nat with (S (sg_t st) + length tr)%nat by lia. split; [exact B1|]. split; [congruence|].
    intro i. rewrite B3, E3. unfold c. rewrite expose_step by (auto; congruence). unfold weighted_sum. cbn [map length seq zipw lsum]. ring.
Qed.
Lemma mean_value prm n lr tr st : sg_avg prm <> AvgNone -> length (sg_self st) = length (sg_w st) -> sg_t st = O -> tr <> [] -> sg_trace prm n lr st tr ->
  forall i, get1 (sg_self (last tr st)) i = weighted_mean (avg_weight (sg_avg prm)) (map (fun s => get1 (sg_w s) i) tr).
Proof.
  intros HA HL HT HN H i. destruct (trace_avg prm n lr HA tr st HL H) as [_ [_ B]]. specialize (B i). rewrite HT in B. cbn [Nat.add] in B.
  assert (P : (0 < length tr)%nat) by (destruct tr; [congruence|cbn; lia]). assert (NZ := total_pos _ _ HA P).
  unfold weighted_mean. rewrite map_length. replace (total (avg_weight (sg_avg prm)) 0) with 0 in B by reflexivity.
  set (x := total _ _) in *. set (y := get1 _ i) in *. set (z := weighted_sum _ _ _) in *. clearbody x y z.
  replace z with (x * y) by (rewrite B; ring). field. exact NZ.
Qed.

(** fit *)
Definition fit_start {X Y} (bm : bmodel X Y) (L : sg_learner) : sg_state :=
  let w := match sl_fitted L with Some (w, _, _) => w | None => vzero (sm_size (bm_s bm)) end in
  SGState w w (vzero (sm_size (bm_s bm))) (sl_t L).
Lemma fit_split {X Y} prm (bm : bmodel X Y) shuf warm S L L' : sg_fit prm bm shuf warm S L = Ok L' ->
  exists lr c0 st c S' o, (if warm then exists w, sl_fitted L = Some (w, lr, c0)
      else lr = match sg_lr prm with None => sg_C prm * ofN (length S) | Some r => r end /\ c0 = []) /\
    sg_loop prm bm lr shuf (sg_max_iter prm) 0 S (fit_start bm L) c0 = Ok (st, c, S') /\
    sg_objective prm bm S' (sg_self st) = Ok o /\ L' = SGLearner (sg_t st) (Some (sg_self st, lr, c ++ [o])).
Proof.
  unfold sg_fit. intro H. apply bind_ok in H. destruct H as [[lr c0] [A H]]. apply bind_ok in H. destruct H as [[[st c] S'] [B H]].
  apply bind_ok in H. destruct H as [o [D H]]. injection H as <-. exists lr, c0, st, c, S', o. cbn [fst snd] in *. split; [|auto].
  destruct warm.
  - destruct (sl_fitted L) as [[[w l] c1]|]; [|discriminate A]. injection A as <- <-. eauto.
  - injection A as <- <-. auto.
Qed.
Lemma fit_average {X Y} prm (bm : bmodel X Y) shuf warm S L L' :
  (forall it S, length (shuf it S) = length S) -> sg_fit prm bm shuf warm S L = Ok L' ->
  exists lr w0 w c tr,
    w0 = match sl_fitted L with Some (w, _, _) => w | None => vzero (sm_size (bm_s bm)) end /\
    sg_trace prm (length S) lr (SGState w0 w0 (vzero (sm_size (bm_s bm))) (sl_t L)) tr /\
    sl_fitted L' = Some (w, lr, c) /\ sl_t L' = (sl_t L + length tr)%nat /\ length w = length w0 /\
    match sg_avg prm with
    | AvgNone => w = last (map sg_w tr) w0
    | a => forall i, total (avg_weight a) (sl_t L') * get1 w i =
             total (avg_weight a) (sl_t L) * get1 w0 i + weighted_sum (avg_weight a) (Datatypes.S (sl_t L)) (map (fun s => get1 (sg_w s) i) tr)
    end.
Proof.
  intros HS H. apply fit_split in H. destruct H as [lr [c0 [st [c [S' [o [_ [B [_ ->]]]]]]]]].
  apply loop_reach in B; [|exact HS]. destruct B as [[tr [HT HL]] _]. set (st0 := fit_start bm L) in *.
  exists lr, (sg_w st0), (sg_self st), (c ++ [o]), tr. cbn [sl_t sl_fitted]. split; [reflexivity|]. split; [exact HT|]. split; [reflexivity|].
  destruct (sg_avg prm) eqn:EA.
  - destruct (trace_none prm (length S) lr EA tr st0 eq_refl HT) as [D1 D2]. rewrite HL in D1, D2. split; [exact D2|].
    assert (LL : last (map sg_w tr) (sg_w st0) = sg_w st).
    { rewrite <- HL. clear. generalize st0. induction tr as [|a l IH]; intro x; [reflexivity|]. cbn [map]. rewrite !last_cons. apply IH. }
    split; [|congruence]. rewrite D1, <- LL.
    assert (SH : forall tr st, sg_trace prm (length S) lr st tr -> length (last (map sg_w tr) (sg_w st)) = length (sg_w st)).
    { clear. induction tr as [|s tr IH]; intros st H; [reflexivity|]. destruct H as [[dj A] H]. cbn [map]. rewrite last_cons, IH by auto.
      apply solve_ok in A. destruct A as [_ [L1 [L2 [E1 [E2 _]]]]]. rewrite E2, vadd_length; rewrite ?vscale_length, ?new_grad_length; auto. }
    apply SH. exact HT.
  - assert (HA : sg_avg prm <> AvgNone) by (rewrite EA; discriminate). destruct (trace_avg prm (length S) lr HA tr st0 eq_refl HT) as [D1 [D2 D3]].
    rewrite HL in *. rewrite EA in D3. split; [exact D1|]. split; [exact D2|]. rewrite D1. exact D3.
  - assert (HA : sg_avg prm <> AvgNone) by (rewrite EA; discriminate). destruct (trace_avg prm (length S) lr HA tr st0 eq_refl HT) as [D1 [D2 D3]].
    rewrite HL in *. rewrite EA in D3. split; [exact D1|]. split; [exact D2|]. rewrite D1. exact D3.
Qed.

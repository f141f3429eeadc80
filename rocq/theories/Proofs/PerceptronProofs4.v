(** Stopping, convergence and failures of the structured perceptron; instances. *)
From Coq Require Import ZArith.
From Verif Require Import Model.Instances Spec.SolverSpec Spec.GraphSpec Spec.TaskInstances Proofs.GraphCRFProofs Proofs.Arrays Proofs.LossProofs Proofs.SubgradientProofs Proofs.UnstructuredProofs2 Proofs.InstanceProofs.
From Verif Require Export Proofs.PerceptronProofs3.

Section Stop.
Context {X Y : Type} (m : smodel X Y) (T : task X Y) (d : nat) (S : list (X * Y)).
Hypothesis HC : computes m T d S.
Hypothesis HI : infers m T d S.

Lemma visit_len batch lr w0 w v V : In (v_sample v) S -> length w0 = d -> length w = d -> presents m T batch lr w0 w (v :: V) ->
  length (v_after v) = d /\ 0 <= v_loss T v.
Proof.
  intros Hv H0 Hw [E [A1 [A2 _]]].
  assert (HW : length (if batch then w0 else w) = d) by (destruct batch; assumption).
  pose proof (HI _ _ _ Hv HW E) as L. destruct (HC _ Hv) as [C1 [_ C3]]. destruct (C3 _ C1) as [D1 _]. destruct (C3 _ L) as [E1 [E2 _]].
  split; [|exact E2]. destruct (Qceqb_spec (v_loss T v) 0) as [Z|Z]; [rewrite (A1 Z); exact Hw|]. rewrite (A2 Z). rewrite vadd_length; [exact Hw|].
  unfold v_diff. rewrite vscale_length, vsub_length; congruence.
Qed.
Lemma finish_len batch lr w0 : length w0 = d -> forall V w, (forall v, In v V -> In (v_sample v) S) -> length w = d -> presents m T batch lr w0 w V ->
  length (finish (w, V)) = d /\ 0 <= lsum (map (v_loss T) V).
Proof.
  intros H0. induction V as [|v V IH]; intros w HV Hw P.
  - split; [exact Hw|discriminate].
  - destruct (visit_len _ _ _ _ _ _ (HV v (or_introl eq_refl)) H0 Hw P) as [A1 A2]. destruct P as [_ [_ [_ P]]].
    destruct (IH _ (fun v' H => HV v' (or_intror H)) A1 P) as [B1 B2]. split.
    + unfold finish in *. cbn [fst snd map] in *. rewrite last_cons. exact B1.
    + cbn [map lsum]. qclra.
Qed.
Lemma zero_epoch batch lr w0 : length w0 = d -> forall V w, (forall v, In v V -> In (v_sample v) S) -> length w = d -> presents m T batch lr w0 w V ->
  lsum (map (v_loss T) V) = 0 -> finish (w, V) = w /\
  forall v, In v V -> sm_inference m (fst (v_sample v)) (if batch then w0 else w) = Ok (v_pred v) /\ v_loss T v = 0.
Proof.
  intros H0. induction V as [|v V IH]; intros w HV Hw P Z.
  - split; [reflexivity|intros v []].
  - destruct (visit_len _ _ _ _ _ _ (HV v (or_introl eq_refl)) H0 Hw P) as [A1 A2]. destruct P as [P1 [P2 [_ P4]]].
    destruct (finish_len _ _ _ H0 V _ (fun v' H => HV v' (or_intror H)) A1 P4) as [_ B2].
    cbn [map lsum] in Z. assert (Z1 : v_loss T v = 0) by (apply Qcle_antisym; [qclra|exact A2]).
    assert (Z2 : lsum (map (v_loss T) V) = 0) by (rewrite <- Z, Z1; ring).
    rewrite (P2 Z1) in P4. destruct (IH w (fun v' H => HV v' (or_intror H)) Hw P4 Z2) as [C1 C2]. split.
    + unfold finish in *. cbn [fst snd map] in *. rewrite last_cons, (P2 Z1). exact C1.
    + intros v' [<-|H]; [auto|exact (C2 v' H)].
Qed.
Lemma epochs_snoc prm : forall Es it w e, length w = d -> epochs prm m T S it w (Es ++ [e]) ->
  length (finish_all w Es) = d /\ fst e = finish_all w Es /\ map v_sample (snd e) = S /\
  exists lr, presents m T (pc_batch prm) lr (fst e) (fst e) (snd e).
Proof.
  induction Es as [|[w1 V] Es IH]; intros it w e Hw H; cbn [app epochs] in H.
  - destruct H as [H1 [H2 [H3 _]]]. subst w. split; [exact Hw|]. split; [reflexivity|]. split; [exact H2|]. eexists. exact H3.
  - destruct H as [H1 [H2 [H3 H4]]]. cbn [fst snd] in *. subst w1.
    assert (HV : forall v, In v V -> In (v_sample v) S) by (intros v Hv; rewrite <- H2; apply in_map; exact Hv).
    destruct (finish_len _ _ _ Hw V w HV Hw H3) as [L _]. rewrite finish_all_cons. exact (IH _ _ _ L H4).
Qed.
Lemma zero_entry_loss ml e : zero_entry (entry T ml e) -> epoch_loss T e = 0.
Proof.
  clear HC HI. unfold entry. destruct (Qceqb_spec ml 0) as [Z|Z]; cbn [zero_entry]; [contradiction|]. intros H.
  replace (epoch_loss T e) with (epoch_loss T e / ml * ml) by (field; exact Z). rewrite H. ring.
Qed.
Lemma stop_fits prm Es e ml : epochs prm m T S 0 (vzero d) (Es ++ [e]) -> zero_entry (entry T ml e) ->
  finish_all (vzero d) (Es ++ [e]) = finish_all (vzero d) Es /\ fits m T S (finish_all (vzero d) (Es ++ [e])).
Proof.
  intros HE Z. destruct (epochs_snoc prm Es 0 (vzero d) e (vzero_length d) HE) as [A1 [A2 [A3 [lr A4]]]]. apply zero_entry_loss in Z.
  assert (LE : length (fst e) = d) by (rewrite A2; exact A1).
  assert (HV : forall v, In v (snd e) -> In (v_sample v) S) by (intros v Hv; rewrite <- A3; apply in_map; exact Hv).
  destruct (zero_epoch _ _ _ LE (snd e) (fst e) HV LE A4 Z) as [B1 B2].
  assert (FE : finish_all (vzero d) (Es ++ [e]) = fst e).
  { unfold finish_all. rewrite map_app, last_app. cbn [map last]. destruct e. exact B1. }
  split; [rewrite FE; exact A2|]. rewrite FE. intros p Hp. rewrite <- A3 in Hp. apply in_map_iff in Hp. destruct Hp as [v [<- Hv]].
  destruct (B2 v Hv) as [C1 C2]. exists (v_pred v). split; [|exact C2]. destruct (pc_batch prm); exact C1.
Qed.
Lemma last_snoc_or {A} (l : list A) : l = [] \/ exists l' a, l = l' ++ [a].
Proof. clear. destruct (rev l) as [|a r] eqn:E; [left; rewrite <- (rev_involutive l), E; reflexivity|]. right. exists (rev r), a. rewrite <- (rev_involutive l), E. reflexivity. Qed.

Lemma early_stop prm mloss old mls L x c : sm_size m = d -> rates_ok prm -> average_ok prm -> mapM (fun p => mloss (snd p)) S = Ok mls ->
  pc_fit prm m mloss old S = (L, x) -> pl_curve L = Some c -> last c None = Some 0 -> pc_avg prm = NoAverage -> fits m T S (pl_w L).
Proof.
  intros H1 H2 H3 H4 E EC EL EA. destruct (fit_run m T d S HC HI prm mloss old mls L x H1 H2 H3 H4 E) as [Es [P [rs [A1 [A2 [A3 [A4 [A5 [A6 A7]]]]]]]]].
  rewrite EC in A3. injection A3 as ->. destruct (last_snoc_or Es) as [->|[Es' [e ->]]]; [discriminate EL|].
  rewrite map_app, last_app in EL. cbn [map last] in EL. assert (Z : zero_entry (entry T (lsum mls) e)) by (rewrite EL; reflexivity).
  destruct rs as [rs|].
  - destruct A7 as [e' [_ [_ [_ G]]]]. exfalso. unfold goes_on in G. rewrite Forall_app in G. destruct G as [_ G]. apply Forall_cons_iff in G. exact (proj1 G Z).
  - destruct A7 as [-> _]. unfold exposed in A4. rewrite EA in A4. cbn [pc_first] in A4. rewrite A4. exact (proj2 (stop_fits prm Es' e _ A1 Z)).
Qed.
Lemma no_break prm it w e x : answers m T d S -> length w = d -> broken prm m T S it w e x -> False.
Proof.
  intros HA Hw [B1 [B2 B3]]. destruct (pc_batch prm).
  - destruct B3 as [_ [p [Hp B3]]]. destruct (HA p w Hp Hw) as [y [E _]]. rewrite E in B3. discriminate B3.
  - destruct B3 as [p [r [B3 B4]]].
    assert (HV : forall v, In v (snd e) -> In (v_sample v) S) by (intros v Hv; rewrite B3; apply in_or_app; left; apply in_map; exact Hv).
    destruct (finish_len _ _ _ Hw (snd e) w HV Hw B2) as [L _]. destruct e as [w' V]. cbn [fst snd] in *. subst w'.
    assert (Hp : In p S) by (rewrite B3; apply in_or_app; right; left; reflexivity).
    destruct (HA p _ Hp L) as [y [E _]]. rewrite E in B4. discriminate B4.
Qed.
Lemma epochs_len prm : forall Es it w, length w = d -> epochs prm m T S it w Es -> length (finish_all w Es) = d.
Proof.
  induction Es as [|[w1 V] Es IH]; intros it w Hw H; [exact Hw|]. destruct H as [H1 [H2 [H3 H4]]]. cbn [fst snd] in *. subst w1.
  assert (HV : forall v, In v V -> In (v_sample v) S) by (intros v Hv; rewrite <- H2; apply in_map; exact Hv).
  destruct (finish_len _ _ _ Hw V w HV Hw H3) as [L _]. rewrite finish_all_cons. exact (IH _ _ L H4).
Qed.
Lemma fit_answers prm mloss old mls : answers m T d S -> sm_size m = d -> rates_ok prm -> average_ok prm -> mapM (fun p => mloss (snd p)) S = Ok mls ->
  exists L Es, pc_fit prm m mloss old S = (L, None) /\ epochs prm m T S 0 (vzero d) Es /\ (length Es <= pc_max_iter prm)%nat /\
    pl_curve L = Some (map (entry T (lsum mls)) Es) /\ exposed d (pc_batch prm) (pc_avg prm) Es None (pl_w L) /\
    Forall (fun e => ~ zero_entry (entry T (lsum mls) e)) (removelast Es) /\ ends T (pc_max_iter prm) Es (lsum mls).
Proof.
  intros HA H1 H2 H3 H4. destruct (pc_fit prm m mloss old S) as [L x] eqn:E.
  destruct (fit_run m T d S HC HI prm mloss old mls L x H1 H2 H3 H4 E) as [Es [P [rs [A1 [A2 [A3 [A4 [A5 [A6 A7]]]]]]]]].
  destruct rs as [rs|].
  - destruct A7 as [e [_ [B _]]]. exfalso. exact (no_break prm _ _ e rs HA (epochs_len prm Es 0 _ (vzero_length d) A1) B).
  - destruct A7 as [-> A7]. cbn [leaving] in A6. subst x. exists L, Es. auto 10.
Qed.
Lemma never_started prm mloss old mls L x c k : answers m T d S -> sm_size m = d -> rates_ok prm -> mapM (fun p => mloss (snd p)) S = Ok mls ->
  pc_avg prm = FromEpoch k -> (0 <= k)%Z -> pc_fit prm m mloss old S = (L, x) -> pl_curve L = Some c -> (Z.of_nat (length c) <= k)%Z ->
  pl_w L = vzero d.
Proof.
  intros HA H1 H2 H4 EA K0 E EC LK. assert (H3 : average_ok prm) by (unfold average_ok; rewrite EA; cbn; lia).
  destruct (fit_answers prm mloss old mls HA H1 H2 H3 H4) as [L' [Es [B1 [B2 [B3 [B4 [B5 _]]]]]]]. rewrite E in B1. injection B1 as <- _.
  rewrite EC in B4. injection B4 as ->. rewrite map_length in LK. unfold exposed in B5. rewrite EA in B5. cbn [pc_first] in B5.
  unfold observed in B5. destruct (Z.eqb_spec k (-1)); [lia|]. rewrite skipn_all2 in B5 by lia. exact (proj1 (proj2 B5) eq_refl).
Qed.
Lemma no_max_loss prm mloss old mls L c x : sm_size m = d -> rates_ok prm -> average_ok prm -> mapM (fun p => mloss (snd p)) S = Ok mls ->
  lsum mls = 0 -> pc_fit prm m mloss old S = (L, x) -> pl_curve L = Some c -> Forall (fun o => o = None) c /\ (answers m T d S -> length c = pc_max_iter prm).
Proof.
  intros H1 H2 H3 H4 HZ E EC. destruct (fit_run m T d S HC HI prm mloss old mls L x H1 H2 H3 H4 E) as [Es [P [rs [A1 [A2 [A3 [A4 [A5 [A6 A7]]]]]]]]].
  assert (N : forall e : pc_epoch X Y, entry T (lsum mls) e = None) by (intros e; unfold entry; rewrite HZ; reflexivity).
  rewrite EC in A3. injection A3 as ->. split.
  - apply Forall_forall. intros o Ho. apply in_map_iff in Ho. destruct Ho as [e [<- _]]. apply N.
  - intros HA. rewrite map_length. destruct rs as [rs|].
    + destruct A7 as [e [_ [B _]]]. exfalso. exact (no_break prm _ _ e rs HA (epochs_len prm Es 0 _ (vzero_length d) A1) B).
    + destruct A7 as [_ [A7|[Es' [e [_ Z]]]]]; [exact A7|]. rewrite N in Z. contradiction.
Qed.
End Stop.

(** ** constant learning rate *)
Lemma lr_one prm it : pc_decay prm = 0%Z -> pc_lr prm it = 1.
Proof. intros H. unfold pc_lr. rewrite H. reflexivity. Qed.
Lemma moved_one {X Y} prm (T : task X Y) : pc_decay prm = 0%Z -> forall Es it, moved prm T it Es = ofN (all_mistakes T Es).
Proof.
  intros H. induction Es as [|e Es IH]; intros it; [reflexivity|]. cbn [moved all_mistakes map list_sum fold_right]. rewrite IH, (lr_one _ _ H), ofN_plus.
  unfold all_mistakes, list_sum. ring.
Qed.
Definition rate_factor (batch : bool) (n : nat) : Qc := if batch then ofN n else 1.
Lemma mistakes_le {X Y} (T : task X Y) V : (mistakes T V <= length V)%nat.
Proof. unfold mistakes. induction V as [|v V IH]; cbn [filter length]; [lia|]. match goal with |- context [if ?b then _ else _] => destruct b end; cbn [length]; lia. Qed.
Lemma ofN_le a b : (a <= b)%nat -> ofN a <= ofN b.
Proof. intros H. replace b with (a + (b - a))%nat by lia. rewrite ofN_plus. pose proof (ofN_nonneg (b - a)). qclra. Qed.
Lemma spent_one {X Y} prm m (T : task X Y) S : pc_decay prm = 0%Z -> forall Es it w, epochs prm m T S it w Es ->
  spent prm T it Es <= rate_factor (pc_batch prm) (length S) * ofN (all_mistakes T Es).
Proof.
  intros H. induction Es as [|e Es IH]; intros it w HE.
  - cbn [spent all_mistakes map list_sum fold_right]. rewrite ofN_0. replace (_ * 0) with 0 by ring. apply Qcle_refl.
  - destruct HE as [E1 [E2 [E3 E4]]]. specialize (IH _ _ E4). cbn [spent]. rewrite (lr_one _ _ H).
    replace (all_mistakes T (e :: Es)) with (mistakes T (snd e) + all_mistakes T Es)%nat by reflexivity. rewrite ofN_plus.
    assert (G : mistake_cost (pc_batch prm) (mistakes T (snd e)) <= rate_factor (pc_batch prm) (length S) * ofN (mistakes T (snd e))).
    { unfold mistake_cost, rate_factor. destruct (pc_batch prm); [|rewrite Qcmult_1_l; apply Qcle_refl].
      apply Qcmult_le_compat_r; [|apply ofN_nonneg]. apply ofN_le. rewrite <- E2, map_length. apply mistakes_le. }
    rewrite Qcmult_plus_distr_r. replace (1 * 1 * mistake_cost (pc_batch prm) (mistakes T (snd e))) with (mistake_cost (pc_batch prm) (mistakes T (snd e))) by ring.
    revert G IH. qatoms. intros. qclra.
Qed.
Lemma mistake_bound {X Y} (m : smodel X Y) (T : task X Y) d S prm u g R2 Es : computes m T d S -> infers_exactly m T d S ->
  pc_decay prm = 0%Z -> length u = d -> 0 < g -> 0 <= R2 -> Forall (separates T u g) S -> Forall (wrong_within T R2) S ->
  epochs prm m T S 0 (vzero d) Es ->
  ofN (all_mistakes T Es) * (g * g) <= (if pc_batch prm then ofN (length S) else 1) * (R2 * normsq u).
Proof.
  intros HC HX HD HU HG HR0 HS HR HE.
  (* the rate does not depend on t0 *)
  set (prm' := PCParams (pc_max_iter prm) (pc_batch prm) 0 0 (pc_avg prm)).
  assert (HE' : epochs prm' m T S 0 (vzero d) Es).
  { assert (LR : forall it, pc_lr prm' it = pc_lr prm it) by (intros it; rewrite (lr_one prm) by exact HD; reflexivity).
    revert HE. generalize 0%nat (vzero d). induction Es as [|e Es IH]; intros it w H; [exact I|]. destruct H as [E1 [E2 [E3 E4]]].
    split; [exact E1|]. split; [exact E2|]. split; [rewrite LR; exact E3|]. apply IH. exact E4. }
  pose proof (rate_bound m T d S prm' u g R2 Es HC HX (Qcle_refl 0) HU (Qclt_le_weak _ _ HG) HS HR HE') as B.
  pose proof (spent_one prm' m T S eq_refl Es 0 (vzero d) HE') as SP. rewrite (moved_one prm' T eq_refl) in B.
  change (rate_factor (pc_batch prm') (length S)) with (if pc_batch prm then ofN (length S) else 1) in SP.
  set (f := if pc_batch prm then ofN (length S) else 1) in *. set (M := all_mistakes T Es) in *.
  assert (F0 : 0 <= f) by (unfold f; destruct (pc_batch prm); [apply ofN_nonneg|discriminate]). clearbody f.
  pose proof (normsq_nonneg u) as NU. pose proof (ofN_nonneg M) as MN.
  assert (B2 : ofN M * (ofN M * (g * g)) <= ofN M * (f * (R2 * normsq u))).
  { apply Qcle_trans with (normsq u * (spent prm' T 0 Es * R2)).
    - replace (ofN M * (ofN M * (g * g))) with (ofN M * g * (ofN M * g)) by ring. exact B.
    - replace (normsq u * (spent prm' T 0 Es * R2)) with (spent prm' T 0 Es * (R2 * normsq u)) by ring.
      replace (ofN M * (f * (R2 * normsq u))) with (f * ofN M * (R2 * normsq u)) by ring. apply Qcmult_le_compat_r; [exact SP|]. apply Qcmult_nonneg; assumption. }
  destruct (Nat.eq_dec M 0) as [Z|Z].
  - rewrite Z, ofN_0. replace (0 * (g * g)) with 0 by ring. apply Qcmult_nonneg; [exact F0|]. apply Qcmult_nonneg; assumption.
  - assert (MP : 0 < ofN M) by (apply ofN_pos; lia). rewrite (Qcmult_comm (ofN M) (ofN M * (g * g))), (Qcmult_comm (ofN M) (f * _)) in B2.
    apply Qcmult_lt_0_le_reg_r in B2; assumption.
Qed.

Lemma no_mistakes {X Y} (T : task X Y) V : mistakes T V = 0%nat -> lsum (map (v_loss T) V) = 0.
Proof.
  unfold mistakes. induction V as [|v V IH]; [reflexivity|]. cbn [filter map lsum]. destruct (Qceqb_spec (v_loss T v) 0) as [Z|Z]; cbn [negb length].
  - intros H. rewrite (IH H), Z. ring.
  - intros H. discriminate H.
Qed.
Lemma nonzero_entry {X Y} (T : task X Y) ml e : ml <> 0 -> ~ zero_entry (entry T ml e) -> (1 <= mistakes T (snd e))%nat.
Proof.
  intros M H. destruct (mistakes T (snd e)) eqn:E; [|lia]. exfalso. apply H. apply no_mistakes in E. unfold entry, epoch_loss.
  destruct (Qceqb_spec ml 0) as [Z|Z]; [contradiction|]. cbn [zero_entry]. rewrite E. field. exact M.
Qed.
Lemma all_mistakes_app {X Y} (T : task X Y) Es Fs : all_mistakes T (Es ++ Fs) = (all_mistakes T Es + all_mistakes T Fs)%nat.
Proof. unfold all_mistakes. rewrite map_app. unfold list_sum. rewrite fold_right_app. fold (list_sum (map (fun e : pc_epoch X Y => mistakes T (snd e)) Fs)).
  generalize (list_sum (map (fun e : pc_epoch X Y => mistakes T (snd e)) Fs)). intros k. induction Es as [|e Es IH]; cbn [map fold_right]; [reflexivity|]. rewrite IH. lia. Qed.
Lemma all_mistakes_ge {X Y} (T : task X Y) ml Es : ml <> 0 -> Forall (fun e => ~ zero_entry (entry T ml e)) Es -> (length Es <= all_mistakes T Es)%nat.
Proof.
  intros M. induction Es as [|e Es IH]; intros H; [cbn; lia|]. apply Forall_cons_iff in H. destruct H as [H1 H2]. specialize (IH H2).
  apply (nonzero_entry T ml e M) in H1. change (all_mistakes T (e :: Es)) with (mistakes T (snd e) + all_mistakes T Es)%nat. cbn [length]. lia.
Qed.
Lemma exactly_answers {X Y} (m : smodel X Y) T d S : infers_exactly m T d S -> answers m T d S.
Proof. intros H p w Hp Hw. destruct (H p w Hp Hw) as [y [H1 [H2 _]]]. exists y. auto. Qed.
Lemma zero_entry_dec {X Y} (T : task X Y) ml e : zero_entry (entry T ml e) \/ ~ zero_entry (entry T ml e).
Proof. destruct (entry T ml e) as [q|]; cbn [zero_entry]; [|right; tauto]. destruct (Qceqb_spec q 0); auto. Qed.

Lemma converges {X Y} (m : smodel X Y) (T : task X Y) d S prm mloss old mls u g R2 : computes m T d S -> infers_exactly m T d S ->
  sm_size m = d -> pc_decay prm = 0%Z -> average_ok prm -> mapM (fun p => mloss (snd p)) S = Ok mls -> lsum mls <> 0 ->
  length u = d -> 0 < g -> 0 <= R2 -> Forall (separates T u g) S -> Forall (wrong_within T R2) S ->
  (if pc_batch prm then ofN (length S) else 1) * (R2 * normsq u) < ofN (pc_max_iter prm) * (g * g) ->
  exists L c, pc_fit prm m mloss old S = (L, None) /\ pl_curve L = Some c /\ c <> [] /\ last c None = Some 0 /\
    ofN (length c - 1) * (g * g) <= (if pc_batch prm then ofN (length S) else 1) * (R2 * normsq u) /\
    (pc_avg prm = NoAverage -> fits m T S (pl_w L)).
Proof.
  intros HC HX H1 HD H3 H4 HM HU HG HR0 HS HR HB. pose proof (exactly_infers m T d S HX) as HI. pose proof (exactly_answers _ _ _ _ HX) as HA.
  assert (H2 : rates_ok prm) by (left; lia).
  destruct (fit_answers m T d S HC HI prm mloss old mls HA H1 H2 H3 H4) as [L [Es [B1 [B2 [B3 [B4 [B5 [B6 B7]]]]]]]].
  pose proof (mistake_bound m T d S prm u g R2 Es HC HX HD HU HG HR0 HS HR B2) as MB.
  set (B := (if pc_batch prm then ofN (length S) else 1) * (R2 * normsq u)) in *. clearbody B.
  assert (GG : 0 <= g * g) by (apply Qclt_le_weak, Qcmult_pos; assumption).
  destruct (last_snoc_or Es) as [->|[Es' [e ->]]].
  - exfalso. destruct B7 as [B7|[Es' [e [B7 _]]]]; [|destruct Es'; discriminate B7]. cbn [length] in B7. rewrite <- B7, ofN_0 in HB.
    cbn [all_mistakes map list_sum fold_right] in MB. change (all_mistakes T []) with 0%nat in MB. rewrite ofN_0 in MB.
    apply (Qclt_not_le _ _ HB). exact MB.
  - rewrite removelast_last in B6. pose proof (all_mistakes_ge T _ _ HM B6) as G1.
    assert (Z : zero_entry (entry T (lsum mls) e)).
    { destruct B7 as [B7|[Es1 [e1 [B7 Z]]]]; [|apply app_inj_tail in B7; destruct B7 as [_ ->]; exact Z].
      destruct (zero_entry_dec T (lsum mls) e) as [Z|Z]; [exact Z|]. exfalso.
      assert (G2 : (length (Es' ++ [e]) <= all_mistakes T (Es' ++ [e]))%nat).
      { apply (all_mistakes_ge T (lsum mls)); [exact HM|]. apply Forall_app. split; [exact B6|]. constructor; [exact Z|constructor]. }
      rewrite B7 in G2. apply (Qclt_not_le _ _ HB). apply Qcle_trans with (2 := MB). apply Qcmult_le_compat_r; [apply ofN_le; exact G2|exact GG]. }
    assert (LC : last (map (entry T (lsum mls)) (Es' ++ [e])) None = Some 0).
    { rewrite map_app, last_app. cbn [map last]. destruct (entry T (lsum mls) e) as [q|]; cbn [zero_entry] in Z; [rewrite Z; reflexivity|contradiction]. }
    exists L, (map (entry T (lsum mls)) (Es' ++ [e])).
    split; [exact B1|]. split; [exact B4|]. split; [rewrite map_app; destruct (map _ Es'); discriminate|]. split; [exact LC|]. split.
    + rewrite map_length, app_length. cbn [length]. replace (length Es' + 1 - 1)%nat with (length Es') by lia.
      apply Qcle_trans with (2 := MB). apply Qcmult_le_compat_r; [|exact GG]. apply ofN_le. rewrite all_mistakes_app. lia.
    + intros EA. exact (early_stop m T d S HC HI prm mloss old mls L None _ H1 H2 H3 H4 B1 B4 LC EA).
Qed.

(** ** failures *)
Lemma average_too_low {X Y} prm (m : smodel X Y) mloss old S : ~ average_ok prm ->
  pc_fit prm m mloss old S = (PCLearner (vzero (sm_size m)) old (pc_avg prm), Some TypeError).
Proof.
  unfold average_ok, pc_fit. destruct (pc_avg prm) as [| |k]; cbn [pc_first]; intros H; try (exfalso; apply H; (exact I || lia)).
  destruct (Z.ltb_spec k (-1)); [reflexivity|]. exfalso. apply H. lia.
Qed.
Lemma rate_fails {X Y} prm (m : smodel X Y) mloss old mls S : average_ok prm -> (pc_decay prm < 0)%Z -> pc_t0 prm = 0 -> (0 < pc_max_iter prm)%nat ->
  mapM (fun p => mloss (snd p)) S = Ok mls ->
  snd (pc_fit prm m mloss old S) = Some ZeroDivisionError /\ pl_w (fst (pc_fit prm m mloss old S)) = vzero (sm_size m).
Proof.
  intros HA HD HT HK HM. unfold pc_fit. rewrite HM.
  assert (TL : (match pc_avg prm with FromEpoch k => (k <? -1)%Z | _ => false end) = false).
  { revert HA. unfold average_ok. destruct (pc_avg prm) as [| |k]; cbn [pc_first]; intros HA; try reflexivity. apply Z.ltb_ge. exact HA. }
  rewrite TL. clear TL. destruct (pc_max_iter prm) as [|k]; [lia|]. cbn [pc_loop]. unfold pc_rate. cbn [pc_decay pc_t0 pc_avg].
  destruct (Z.leb_spec 0 (pc_decay prm)); [lia|]. rewrite HT, ofN_0, Qcplus_0_r. cbn [Qceqb]. 
  replace (Qceqb 0 0) with true by reflexivity. cbn [negb ensure bind].
  destruct (pc_avg prm) as [| |q]; cbn [pc_begin pc_averaging fst snd pl_w pc_w pc_bar pc_obs]; try (split; reflexivity).
  unfold pc_begin. destruct (q =? -1)%Z; cbn [fst snd pc_bar]; rewrite ?vzero_length; split; reflexivity.
Qed.

(** joint_feature without y_true always raises: the weights never move *)
Section Stuck.
Context {X Y : Type} (m : smodel X Y).
Hypothesis HJ : forall x y, exists e, sm_joint m x y None = Err e.
Lemma update_stuck lr p yh w l w' : pc_update m lr p yh w = Ok (l, w') -> w' = w.
Proof.
  unfold pc_update. destruct (sm_loss m (snd p) yh) as [q|]; cbn [bind]; [|discriminate]. destruct (Qceqb q 0); [intros H; injection H; auto|].
  destruct (HJ (fst p) (snd p)) as [e E]. rewrite E. discriminate.
Qed.
Definition still (d : nat) (st : pc_state) : Prop := pc_w st = vzero d /\ pc_bar st = vzero d.
Lemma observe_still d on st : still d st -> still d (pc_observe on st).
Proof.
  intros [H1 H2]. unfold pc_observe. destruct on; [|split; assumption]. split; [exact H1|]. cbn [pc_bar]. rewrite H1, H2. apply vec_ext.
  - rewrite vadd_length, vscale_length; rewrite ?vscale_length; reflexivity.
  - intros i _. rewrite get1_vadd by (rewrite !vscale_length; reflexivity). rewrite !get1_vscale, get1_vzero. ring.
Qed.
Lemma online_still d lr on : forall S st, still d st -> still d (fst (pc_online m lr on S st)).
Proof.
  induction S as [|p S IH]; intros st H; [exact H|]. cbn [pc_online]. destruct (sm_inference m (fst p) (pc_w st)) as [yh|]; cbn [bind]; [|exact H].
  destruct (pc_update m lr p yh (pc_w st)) as [[l w]|] eqn:E; [|exact H]. apply IH. apply observe_still. apply update_stuck in E. subst w. exact H.
Qed.
Lemma updates_still d lr : forall S st, still d st -> still d (fst (pc_updates m lr S st)).
Proof.
  induction S as [|[p yh] S IH]; intros st H; [exact H|]. cbn [pc_updates].
  destruct (pc_update m lr p yh (pc_w st)) as [[l w]|] eqn:E; [|exact H]. apply IH. apply update_stuck in E. subst w. exact H.
Qed.
Lemma batch_still d lr on S st : still d st -> still d (fst (pc_batch_epoch m lr on S st)).
Proof.
  intros H. unfold pc_batch_epoch. destruct (mapM _ S) as [Yh|]; [|exact H]. pose proof (updates_still d lr (combine S Yh) st H) as U.
  destruct (pc_updates m lr (combine S Yh) st) as [st' [e|]]; cbn [fst snd] in *; [exact U|]. apply observe_still. exact U.
Qed.
Lemma begin_still d a st : still d st -> still d (pc_begin a st).
Proof.
  intros [H1 H2]. unfold pc_begin. destruct a as [| |k]; [split; assumption..|]. destruct (k =? -1)%Z; split; cbn [pc_w pc_bar]; try assumption.
  rewrite H2, vzero_length. reflexivity.
Qed.
Lemma loop_still d prm S ml : forall k it st c, still d st -> still d (fst (fst (pc_loop prm m S ml k it st c))).
Proof.
  induction k as [|k IH]; intros it st c H; [exact H|]. cbn [pc_loop]. pose proof (begin_still d (pc_avg prm) st H) as HB.
  destruct (pc_rate prm it) as [lr|]; [|exact HB]. set (q := if pc_batch prm then _ else _).
  assert (HQ : still d (fst q)) by (unfold q; destruct (pc_batch prm); [apply batch_still|apply online_still]; exact HB). clearbody q.
  destruct (snd q); [exact HQ|]. match goal with |- context [if ?b then _ else _] => destruct b end; [exact HQ|apply IH; exact HQ].
Qed.
Lemma fit_stuck prm mloss old S : pl_w (fst (pc_fit prm m mloss old S)) = vzero (sm_size m).
Proof.
  unfold pc_fit. destruct (match pc_avg prm with FromEpoch k => (k <? -1)%Z | _ => false end); [reflexivity|].
  destruct (mapM _ S) as [mls|]; [|reflexivity].
  match goal with |- context [pc_loop ?a m S ?b ?c ?e ?f ?g] => pose proof (loop_still (sm_size m) a S b c e f g (conj eq_refl eq_refl)) as H; destruct (pc_loop a m S b c e f g) as [[st cu] x] end.
  cbn [fst pl_w] in *. destruct H as [H1 H2]. destruct (pc_averaging _); assumption.
Qed.
End Stuck.

(** ** instances *)
Lemma implements_computes {X Y} (m : smodel X Y) (T : task X Y) d S : sm_rescale m = false -> (forall y, sm_tuple m y = false) ->
  Forall (fun p => implements m T d (fst p) (snd p)) S -> (forall p y', In p S -> t_label T (fst p) y' -> 0 <= t_loss T (snd p) y') ->
  computes m T d S.
Proof.
  intros HR HT HS HN p Hp. rewrite Forall_forall in HS. destruct (HS p Hp) as [A1 [A2 A3]]. split; [exact A1|]. split; [exact A2|].
  intros y' Hy. destruct (A3 y' Hy) as [B1 [B2 B3]]. rewrite HR in B2. rewrite HT in B3. split; [exact B1|]. split; [exact (HN p y' Hp Hy)|]. auto.
Qed.
Lemma bc_computes d S : Forall (fun p => length (fst p) = d /\ (snd p = 1%Z \/ snd p = (-1)%Z)) S ->
  computes (bc_smodel d) bc_task d S /\ infers_exactly (bc_smodel d) bc_task d S.
Proof.
  intros H. split.
  - apply implements_computes; [reflexivity|reflexivity| |].
    + apply Forall_impl with (2 := H). intros p [H1 H2]. apply bc_implements; assumption.
    + intros p y' _ _. cbn [t_loss bc_task]. destruct (_ =? _)%Z; discriminate.
  - intros p w Hp Hw. rewrite Forall_forall in H. apply bc_exact_inference; [exact (proj1 (H p Hp))|exact Hw].
Qed.
Lemma mc_computes m S : mc_rescale m = false -> length (mc_cw m) = mc_states m -> (forall s, 0 <= get1 (mc_cw m) s) ->
  Forall (fun p => length (fst p) = mc_features m /\ (snd p < mc_states m)%nat) S ->
  let T := mc_task (mc_states m) (mc_features m) (get1 (mc_cw m)) in
  computes (mc_smodel m) T (mc_size m) S /\ infers_exactly (mc_smodel m) T (mc_size m) S.
Proof.
  intros HR HC HN H T. split.
  - apply implements_computes; [exact HR|reflexivity| |].
    + apply Forall_impl with (2 := H). intros p [H1 H2]. apply mc_implements; assumption.
    + intros p y' _ _. unfold T. cbn [t_loss mc_task]. destruct (snd p =? y')%nat; [discriminate|apply HN].
  - intros p w Hp Hw. rewrite Forall_forall in H. destruct (H p Hp) as [H1 H2]. apply mc_exact_inference; [exact H1|lia|exact Hw].
Qed.
Lemma g_computes solve g cw S : length cw = g_states g -> (forall s, 0 <= get1 cw s) -> (0 < g_states g)%nat ->
  Forall (fun p => exact_solver_on solve (mrows (gx_features (fst p))) (gx_edges (fst p)) /\ valid_x g (fst p) /\
                   labelling (mrows (gx_features (fst p))) (g_states g) (snd p)) S ->
  computes (g_smodel solve g cw) (g_task g cw) (g_size g) S /\ infers_exactly (g_smodel solve g cw) (g_task g cw) (g_size g) S.
Proof.
  intros HC HN HK H. split.
  - apply implements_computes; [reflexivity|reflexivity| |].
    + apply Forall_impl with (2 := H). intros p [_ [H1 H2]]. apply g_implements; assumption.
    + intros p y' _ _. cbn [t_loss g_task]. apply hamming_nonneg. intros i _. apply HN.
  - intros p w Hp Hw. rewrite Forall_forall in H. destruct (H p Hp) as [H1 [H2 H3]]. apply g_exact_inference; assumption.
Qed.
Lemma chain_computes g cw S : length cw = g_states g -> (forall s, 0 <= get1 cw s) -> (0 < g_states g)%nat ->
  Forall (fun p => mat_ok (fst p) /\ mcols (fst p) = g_features g /\ (0 < mrows (fst p))%nat /\ labelling (mrows (fst p)) (g_states g) (snd p)) S ->
  computes (chain_smodel g cw) (chain_task g cw) (g_size g) S /\ infers_exactly (chain_smodel g cw) (chain_task g cw) (g_size g) S.
Proof.
  intros HC HN HK H. split.
  - apply implements_computes; [reflexivity|reflexivity| |].
    + apply Forall_impl with (2 := H). intros p [H1 [H2 [H3 H4]]]. apply chain_implements; assumption.
    + intros p y' _ _. cbn [t_loss chain_task]. apply hamming_nonneg. intros i _. apply HN.
  - intros p w Hp Hw. rewrite Forall_forall in H. destruct (H p Hp) as [H1 [H2 [H3 H4]]]. apply chain_exact_inference; assumption.
Qed.
Lemma mc_rescaled_stuck m : mc_rescale m = true -> forall x y, exists e, sm_joint (mc_smodel m) x y None = Err e.
Proof. intros H x y. cbn [mc_smodel sm_joint]. unfold mc_joint_feature. rewrite H. destruct (ensure _ _); cbn [bind]; [|eexists; reflexivity]. destruct (bcast_row _ _); cbn [bind]; eexists; reflexivity. Qed.

(** ** a concrete run *)
Definition ex13_mc : mc_clf := MC 3 2 [1; 1; 1] true false.
Definition ex13_S : list (list Qc * nat) := [([1; 0], 0%nat); ([0; 1], 1%nat); ([- (1); - (1)], 2%nat)].
Definition ex13_u : list Qc := [1; 0; 0; 1; - (1); - (1)].
Definition ex13_prm (batch : bool) (a : pc_average) : pc_params := PCParams 49 batch 0 1 a.
Definition ex13_mloss (y : nat) : res Qc := index (mc_cw ex13_mc) y.
Definition ex13_task := mc_task 3 2 (get1 (mc_cw ex13_mc)).
(** the same, interrupted at the second sample once the first has been learnt *)
Definition ex13_int : smodel (list Qc) nat :=
  SModel 6 false (mc_joint_feature ex13_mc)
    (fun x w => if (Qceqb (get1 x 0) 0 && negb (Qceqb (get1 w 0) 0))%bool then Err KeyboardInterrupt else mc_inference ex13_mc x w)
    (mc_laug ex13_mc) (fun _ => false) (mc_loss ex13_mc) (fun _ _ => Err AttributeError).
Lemma ex13_separates : Forall (separates ex13_task ex13_u 1) ex13_S /\ Forall (wrong_within ex13_task (ofN 4)) ex13_S.
Proof.
  split; repeat constructor; intros y' Hy; cbn in Hy; destruct y' as [|[|[|y']]]; try lia; vm_compute; intros H; try discriminate; exfalso; apply H; apply Qc_is_canon; reflexivity.
Qed.

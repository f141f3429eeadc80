From Coq Require Import ZArith.
From Verif Require Import Model.OneSlack Model.Instances Spec.TaskInstances Proofs.Arrays Proofs.LossProofs Proofs.OneSlackPrune Proofs.OneSlackCache Proofs.OneSlackProofs
  Proofs.OneSlackProofs2 Proofs.OneSlackProofs3 Proofs.OneSlackProofs4 Spec.OneSlackSpec.

(** ** interruption leaves something to resume from, outside two windows *)
Lemma del_at_incl {A} i (l : list A) : incl (del_at i l) l.
Proof.
  revert i. induction l as [|y l IH]; intros [|i] x H; auto; cbn in H.
  - right. auto.
  - destruct H as [H|H]; [left; auto|right; apply (IH i); auto].
Qed.
Lemma del_at_le {A} i (l : list A) : (length (del_at i l) <= length l)%nat.
Proof. unfold del_at. rewrite app_length, firstn_length, skipn_length. lia. Qed.
Lemma del_loop_le {A} ds : forall (cs : list A) al, (length (fst (del_loop ds cs al)) <= length cs)%nat.
Proof.
  induction ds as [|i ds IH]; intros cs al; cbn [del_loop fst]; [lia|]. specialize (IH (del_at i cs) (del_at i al)). assert (Q := del_at_le i cs). lia.
Qed.
Lemma del_points_in {A} ds : forall (cs : list A) al pt c' al', In (pt, (c', al')) (del_points ds cs al) ->
  incl c' cs /\ incl al' al /\ (length (fst (del_loop ds cs al)) <= length c')%nat.
Proof.
  induction ds as [|i ds IH]; intros cs al pt c' al' H; [destruct H|]. cbn [del_points] in H. cbn [del_loop]. destruct H as [H|[H|H]].
  - injection H as _ <- <-. split; [apply del_at_incl|]. split; [apply incl_refl|apply del_loop_le].
  - injection H as _ <- <-. split; [apply del_at_incl|]. split; [apply del_at_incl|apply del_loop_le].
  - apply IH in H. destruct H as [H1 [H2 H3]]. split; [eapply incl_tran; [exact H1|apply del_at_incl]|]. split; auto. eapply incl_tran; [exact H2|apply del_at_incl].
Qed.
Lemma record_nonneg : forall al (a : list Qc), Forall (Forall (fun v => 0 <= v)) al -> Forall (fun v => 0 <= v) a ->
  Forall (Forall (fun v => 0 <= v)) (record_duals al a).
Proof.
  induction al as [|h al IH]; intros [|v a] H1 H2; cbn [record_duals]; auto. apply Forall_cons_iff in H1. apply Forall_cons_iff in H2.
  constructor; [|apply IH; tauto]. apply Forall_app. split; [tauto|]. constructor; [tauto|constructor].
Qed.
Lemma interrupted_resumable {X Y} (T : task X Y) d prm Xs Ys (at0 : os_attrs Y) cs c a pt c' al' :
  o_window prm = O \/ (0 <= o_threshold prm <= 1) ->
  resumable T d Xs Ys at0 -> oa_cons at0 = Some cs -> (exists Yh, mean_con T d Xs Ys Yh c) ->
  length a = S (length cs) -> Forall (fun v => 0 <= v) a ->
  In (pt, (c', al')) (os_points prm c a cs (oa_alphas at0)) -> pt <> PSolving -> pt <> PDelCon ->
  resumable T d Xs Ys (OSAttrs (oa_w at0) (Some c') al' (oa_icache at0) (oa_curve at0) (oa_primal at0) (oa_cached at0)).
Proof.
  intros HT HR EC HM La Na HI N1 N2. destruct HR as [cs0 [E0 [NE [L [Lw [HF [HA HC]]]]]]]. rewrite EC in E0. injection E0 as <-.
  assert (PL := points_lengths prm c a cs (oa_alphas at0) L pt c' al' HI).
  assert (FC : Forall (fun c => exists Yh, mean_con T d Xs Ys Yh c) (cs ++ [c])) by (apply Forall_app; auto).
  assert (FS : Forall (Forall (fun v => 0 <= v)) (oa_alphas at0 ++ [[]])) by (apply Forall_app; auto).
  assert (FR := record_nonneg _ a FS Na).
  assert (NE2 : cs ++ [c] <> []) by (destruct cs; discriminate).
  assert (K : incl c' (cs ++ [c]) /\ c' <> [] /\ Forall (Forall (fun v => 0 <= v)) al').
  { assert (HI2 := HI). unfold os_points in HI2. destruct HI2 as [H|[H|[H|[H|H]]]]; try (injection H as <- <- <-).
    - split; [intros x Hx; apply in_or_app; auto|]. split; auto.
    - congruence.
    - split; [apply incl_refl|]. split; auto.
    - split; [apply incl_refl|]. split; auto.
    - destruct (Nat.eqb_spec (o_window prm) 0) as [W|W]; [destruct H|]. destruct HT as [HT|[T1 T2]]; [contradiction|].
      destruct (inactive_of _ _) as [inact|e] eqn:EI; [|destruct H].
      apply del_points_in in H. destruct H as [H1 [H2 H3]]. split; [exact H1|]. split.
      + destruct (os_prune_keeps prm (cs ++ [c]) (oa_alphas at0) a W) as [cs' [al2 [k [c0 [h [EP [NEc _]]]]]]]; auto.
        * rewrite app_length. cbn [length]. lia.
        * rewrite app_length. cbn [length]. lia.
        * intro Z. rewrite Z in L. destruct cs; [congruence|discriminate].
        * unfold os_prune in EP. rewrite !app_length in EP. cbn [length] in EP. rewrite (proj2 (Nat.eqb_eq _ _)) in EP by lia.
          cbn [ensure bind] in EP. rewrite (proj2 (Nat.eqb_neq _ _)) in EP by auto. rewrite EI in EP. cbn [bind] in EP. injection EP as EP.
          rewrite EP in H3. cbn [fst] in H3. intro Z. subst c'. destruct cs'; [congruence|cbn in H3; lia].
      + apply Forall_forall. intros h Hh. rewrite Forall_forall in FR. auto. }
  destruct K as [K1 [K2 K3]]. exists c'. cbn [oa_cons oa_alphas oa_w oa_icache oa_curve oa_primal].
  split; [reflexivity|]. split; [exact K2|]. split; [destruct pt; congruence|]. split; [exact Lw|].
  split; [apply Forall_forall; intros x Hx; rewrite Forall_forall in FC; auto|]. split; [exact K3|exact HC].
Qed.

(** ** statements without helper definitions *)
Section wrap.
  Context {X Y : Type} (T : task X Y) (d : nat) (ceq : Y -> Y -> res bool) (solve : qp_solver) (prm : os_params) (Xs : list X) (Ys : list Y).
  Lemma fit1_total' (bm : bmodel X Y) sw Yh : (0 < length Xs)%nat -> 0 <= o_C prm -> o_neg prm = None -> o_break prm = false ->
    o_window prm = O \/ (0 <= o_threshold prm <= 1) -> qp_sound solve ->
    (forall (cs : list ocon) reg p, one_slack_problem (o_C prm) None (length Xs) (map fst cs) (map snd cs) reg = Ok p -> solve p <> None) ->
    o_cache prm = O \/ (forall a b, exists r, ceq a b = Ok r) ->
    usable T d prm Xs Ys bm -> (forall b, sw = Some b -> usable T d prm Xs Ys b) ->
    (0 < o_max_iter prm)%nat -> o_tol prm <= 1 -> bm_laug bm Xs Ys (vzero d) = Ok Yh -> 0 < loss_sum T Ys Yh ->
    exists r, os_fit ceq solve prm bm sw Xs Ys Cold = Ok r.
  Proof. intros; eapply fit1_total; eauto. eapply batch_good; apply H7. Qed.
  Lemma fit1_unbound' (bm : bmodel X Y) Yh : (0 < length Xs)%nat -> 0 <= o_C prm -> o_break prm = false ->
    o_window prm = O \/ (0 <= o_threshold prm <= 1) -> o_cache prm = O \/ (forall a b, exists r, ceq a b = Ok r) ->
    usable T d prm Xs Ys bm -> bm_laug bm Xs Ys (vzero d) = Ok Yh ->
    (loss_sum T Ys Yh = 0 /\ feat_sum T d Xs Yh = feat_sum T d Xs Ys) \/ 1 + loss_sum T Ys Yh / ofN (length Xs) < o_tol prm ->
    os_fit ceq solve prm bm None Xs Ys Cold = Err UnboundLocalError.
  Proof. intros; eapply fit1_unbound; eauto. eapply batch_good; apply H4. Qed.
  Lemma fit1_max_iter_zero' (bm : bmodel X Y) sw : (0 < length Xs)%nat -> 0 <= o_C prm ->
    o_window prm = O \/ (0 <= o_threshold prm <= 1) -> o_cache prm = O \/ (forall a b, exists r, ceq a b = Ok r) ->
    usable T d prm Xs Ys bm -> o_max_iter prm = O -> os_fit ceq solve prm bm sw Xs Ys Cold = Err UnboundLocalError.
  Proof. intros; eapply fit1_max_iter_zero; eauto. eapply batch_good; apply H3. Qed.
  Lemma fit_resumes' (bm : bmodel X Y) sw a : (0 < length Xs)%nat -> o_neg prm = None -> o_break prm = false ->
    o_window prm = O \/ (0 <= o_threshold prm <= 1) -> qp_sound solve ->
    (forall (cs : list ocon) reg p, one_slack_problem (o_C prm) None (length Xs) (map fst cs) (map snd cs) reg = Ok p -> solve p <> None) ->
    o_cache prm = O \/ (forall a b, exists r, ceq a b = Ok r) ->
    usable T d prm Xs Ys bm -> (forall b, sw = Some b -> usable T d prm Xs Ys b) -> resumable T d Xs Ys a ->
    os_fit ceq solve prm bm sw Xs Ys (Warm a) = Err UnboundLocalError \/
    exists st reason, os_fit ceq solve prm bm sw Xs Ys (Warm a) = Ok (st, reason) /\ resumable T d Xs Ys (attrs_of st).
  Proof. intros; eapply fit_resumes; eauto. eapply batch_good; apply H6. Qed.
  Lemma fit_cold_resumable' (bm : bmodel X Y) sw st reason : (0 < length Xs)%nat -> 0 <= o_C prm -> o_neg prm = None -> o_break prm = false ->
    o_window prm = O \/ (0 <= o_threshold prm <= 1) -> qp_sound solve ->
    (forall (cs : list ocon) reg p, one_slack_problem (o_C prm) None (length Xs) (map fst cs) (map snd cs) reg = Ok p -> solve p <> None) ->
    o_cache prm = O \/ (forall a b, exists r, ceq a b = Ok r) ->
    usable T d prm Xs Ys bm -> (forall b, sw = Some b -> usable T d prm Xs Ys b) ->
    os_fit ceq solve prm bm sw Xs Ys Cold = Ok (st, reason) -> resumable T d Xs Ys (attrs_of st).
  Proof. intros; eapply fit_cold_resumable; eauto. eapply batch_good; apply H7. Qed.
End wrap.

(** ** cache and rescaled class weights *)
Lemma rescaled_cache_fails ceq prm m sample x y yh : mc_rescale m = true -> (yh < mc_states m)%nat -> length x = mc_features m ->
  Forall (fun c : centry nat => ceq yh (snd c) = Ok false) sample ->
  update_sample ceq prm (mc_smodel m) sample x y yh = Err ValueError.
Proof.
  intros HR HY HX HF. unfold update_sample.
  assert (E : mapM (fun c : centry nat => ceq yh (snd c)) sample = Ok (map (fun _ => false) sample)).
  { apply mapM_ok. rewrite Forall_forall in HF. auto. }
  rewrite E. cbn [bind]. replace (existsb (fun b => b) (map (fun _ => false) sample)) with false.
  2:{ symmetry. clear. induction sample; auto. }
  cbn [sm_joint mc_smodel]. unfold mc_joint_feature. rewrite (proj2 (Nat.ltb_lt _ _) HY). cbn [ensure bind].
  unfold bcast_row. rewrite HX, Nat.eqb_refl. cbn [bind]. rewrite HR. reflexivity.
Qed.

(** ** what one round records *)
Lemma step_record {Y} solve prm n cached c (st st' : os_state Y) : os_step solve prm n cached c st = Ok st' ->
  exists primal obj q v,
    primal = o_C prm * ofN n * Qcmax (violation (o_w st) c) 0 + normsq (o_w st) / (1 + 1) /\
    o_primal st' = (o_primal st ++ [primal])%list /\ o_curve st' = (o_curve st ++ [obj])%list /\ o_obj st' = Some obj /\
    run_qp solve (one_slack_problem (o_C prm) (o_neg prm) n (map fst (o_cons st ++ [c])) (map snd (o_cons st ++ [c]))) = Ok (q, obj) /\
    weights q (map fst (o_cons st ++ [c])) = Ok (o_w st') /\
    o_cached st' = (o_cached st ++ [cached])%list /\
    o_ctol st' = match o_cache_tol prm with
                 | TolAuto => if cached then o_ctol st else (primal - obj) / (1 + 1 + 1 + 1)
                 | _ => o_ctol st
                 end /\
    worst (o_w st') (o_cons st') v /\ o_slack st' = Qcmax v 0.
Proof.
  intro H. unfold os_step in H. apply bind_ok in H. destruct H as [d [ED H]]. apply bind_ok in H. destruct H as [[[[w obj] cs'] al'] [ES H]].
  apply bind_ok in H. destruct H as [vs [EV H]]. apply bind_ok in H. destruct H as [s [EM H]].
  assert (HD : - d + snd c = violation (o_w st) c).
  { unfold np_dot in ED. destruct (length (o_w st) =? length (fst c))%nat; [|discriminate ED]. assert (d = dot (o_w st) (fst c)) by congruence. subst d. unfold violation. ring. }
  rewrite HD in H. unfold solve_1_slack_qp in ES. apply bind_ok in ES. destruct ES as [[q o] [ER ES]]. apply bind_ok in ES. destruct ES as [p [EP ES]].
  apply bind_ok in ES. destruct ES as [w' [EW ES]]. cbn [fst snd] in ES, EW, EP.
  assert (w' = w /\ o = obj /\ fst p = cs' /\ snd p = al') as [-> [-> [<- <-]]] by (repeat split; congruence).
  exists (o_C prm * ofN n * Qcmax (violation (o_w st) c) 0 + normsq (o_w st) / (1 + 1)), obj, q, s.
  match type of H with Ok ?a = Ok st' => assert (S : st' = a) by congruence end. clear H. subst st'. cbn [o_primal o_curve o_obj o_w o_cached o_ctol o_cons o_slack].
  split; [reflexivity|]. split; [reflexivity|]. split; [reflexivity|]. split; [reflexivity|]. split; [exact ER|]. split; [exact EW|].
  split; [reflexivity|]. split; [reflexivity|]. split; [|reflexivity].
  destruct (np_max_spec _ _ EM) as [M1 M2].
  assert (NV : forall k, (k < length (fst p))%nat -> nth k vs 0 = violation w (nth k (fst p) ([], 0))).
  { intros k Hk. pose proof (mapM_nth _ _ _ k ([], 0) 0 EV Hk) as Q. cbv beta in Q. apply bind_ok in Q. destruct Q as [d' [ED' Q]].
    unfold np_dot in ED'. destruct (_ =? _)%nat; [|discriminate ED']. assert (d' = dot w (fst (nth k (fst p) ([], 0)))) by congruence. subst d'.
    assert (nth k vs 0 = - dot w (fst (nth k (fst p) ([], 0))) + snd (nth k (fst p) ([], 0))) as -> by congruence. unfold violation. ring. }
  pose proof (mapM_length _ _ _ EV) as LV. split.
  - apply (In_nth _ _ 0) in M1. destruct M1 as [k [Hk <-]]. exists (nth k (fst p) ([], 0)). split; [apply nth_In; lia|]. symmetry. apply NV. lia.
  - intros c' Hc. apply (In_nth _ _ ([], 0)) in Hc. destruct Hc as [k [Hk <-]]. rewrite <- NV by exact Hk. apply M2. apply nth_In. lia.
Qed.

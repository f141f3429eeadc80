(** C91: switch_to.  Training with a cheap inference method first and switching to a better one when no constraint is found any
    more gives the guarantee of the better one, whatever the first one returned (examples/plot_exact_learning.py). *)
From Coq Require Import ZArith.
From Verif Require Import Model.NSlack Model.OneSlack Model.Instances Spec.TaskInstances Spec.CuttingPlaneSpec Spec.NearSpec Proofs.Arrays Proofs.NSlackExamples Proofs.OneSlackExamples
  Proofs.OneSlackProofs Proofs.OneSlackProofs2 Proofs.CuttingPlane5 Proofs.Near Proofs.Near2 Proofs.NearExamples Proofs.Switch.

(** ** the oracle in use at the end *)
(** A fit that stops by itself has switched. *)
Theorem C91_one_slack_switched :
  forall (X Y : Type) (ceq : Y -> Y -> res bool) solve prm (Xs : list X) (Ys : list Y) gt k (bm : bmodel X Y) sw st st' bm',
    os_loop ceq solve prm Xs Ys gt k bm sw st = Ok (st', OSNoConstraint, bm') -> bm' = match sw with Some b => b | None => bm end.
Proof. intros X Y ceq solve prm Xs Ys gt k bm sw st st' bm' H. exact (os_loop_final ceq solve prm Xs Ys gt k bm sw st st' _ bm' H eq_refl). Qed.
Theorem C91_n_slack_switched :
  forall (X Y : Type) (yeq : Y -> Y -> bool) solve prm (Xs : list X) samples k it (m : smodel X Y) sw st curve primal st' curve' primal' reason m',
    ns_loop yeq solve prm samples (length Xs) k it m sw st curve primal = Ok (st', curve', primal', reason, m') ->
    reason <> MaxIter -> m' = match sw with Some b => b | None => m end.
Proof. intros X Y. exact ns_loop_final. Qed.

(** ** what is learned *)
(** The first oracle need only return allowed outputs. *)
Theorem C91_one_slack :
  forall (X Y : Type) (T : task X Y) d ceq solve prm eps Xs Ys, 0 <= eps ->
  forall ws bm b st, (0 < length Xs)%nat -> 0 <= o_C prm -> 0 <= o_tol prm -> qp_sound solve ->
    usable T d prm Xs Ys bm -> usable T d prm Xs Ys b -> batch_near eps b T d Xs Ys ->
    match ws with Cold => True | Soft _ => False | Warm a => resumable T d Xs Ys a end ->
    os_fit ceq solve prm bm (Some b) Xs Ys ws = Ok (st, OSNoConstraint) ->
    forall hs, hinges T (o_w st) (combine Xs Ys) hs ->
      last (o_primal st) 0 <= primal_value (o_C prm) (o_w st) hs /\
      primal_value (o_C prm) (o_w st) hs <= last (o_primal st) 0 + o_C prm * ofN (length Xs) * eps /\
      (qp_exact solve -> o_neg prm = None -> In (vzero d, 0) (o_cons st) ->
       forall w' hs', length w' = d -> hinges T w' (combine Xs Ys) hs' ->
         primal_value (o_C prm) (o_w st) hs <= primal_value (o_C prm) w' hs' +
           o_C prm * ofN (length Xs) * (o_tol prm + eps) + qp_reg * (o_C prm * ofN (length Xs) * (o_C prm * ofN (length Xs)))).
Proof.
  intros X Y T d ceq solve prm eps Xs Ys HE ws bm b st H1 H2 H3 H4 H5 H6 H7 HW. apply (one_slack_final T d ceq solve prm eps Xs Ys HE ws bm (Some b) st H1 H2 H3 H4 H5).
  - intros b' E. injection E as <-. exact H6.
  - exact H7.
  - destruct ws; [exact I|contradiction|exact HW].
Qed.
Theorem C91_n_slack :
  forall (X Y : Type) (T : task X Y) d yeq solve prm eps Xs Ys, 0 <= ns_C prm -> length Xs = length Ys ->
  forall m b old st curve primal, qp_exact solve -> ns_neg prm = None -> sm_size m = d ->
    oracle_ok m T d (combine Xs Ys) -> oracle_near eps b T d (combine Xs Ys) ->
    yeq_ok T yeq (combine Xs Ys) -> zero_loss_same T (combine Xs Ys) ->
    ns_fit yeq solve prm m (Some b) Xs Ys None old = Ok (st, curve, primal, NoNewConstraint) ->
    forall hs w' hs', hinges T (st_w st) (combine Xs Ys) hs -> length w' = d -> hinges T w' (combine Xs Ys) hs' ->
      primal_value (ns_C prm) (st_w st) hs <= primal_value (ns_C prm) w' hs' +
        ns_C prm * (ofN (length Xs) * (small + eps)) + qp_reg * (ofN (length Xs) * (ns_C prm * ns_C prm)).
Proof.
  intros X Y T d yeq solve prm eps Xs Ys HC HXY m b old st curve primal H1 H2 H3 H4 H5. apply n_slack_final; auto.
  intros m' E. injection E as <-. exact (near_is_ok _ _ _ _ _ H5).
Qed.
(** With enough iterations for both phases the fit stops by itself, so the guarantee holds. *)
Theorem C91_one_slack_converges :
  forall (X Y : Type) (T : task X Y) (d : nat) (ceq : Y -> Y -> res bool) (solve : qp_solver) (prm : os_params)
         (Xs : list X) (Ys : list Y) (eps R2 L : Qc) (bm b : bmodel X Y),
    let K := o_C prm * ofN (length Xs) in
    (0 < length Xs)%nat -> 0 < o_C prm -> 0 < o_tol prm -> 0 < R2 -> o_window prm = O -> o_neg prm = None -> qp_exact solve ->
    (forall p y', In p (combine Xs Ys) -> t_label T (fst p) y' ->
       normsq (vsub (t_feat T (fst p) (snd p)) (t_feat T (fst p) y')) <= R2 /\ t_loss T (snd p) y' <= L) ->
    forall (st : os_state Y) (reason : os_stop), 0 <= eps ->
    usable T d prm Xs Ys bm -> usable T d prm Xs Ys b -> batch_near eps b T d Xs Ys ->
    K * L + qp_reg * (K * K) / (1 + 1) < ofN (o_max_iter prm - 2) * (gain K (o_tol prm) R2 - qp_reg * (K * K) / (1 + 1)) ->
    os_fit ceq solve prm bm (Some b) Xs Ys Cold = Ok (st, reason) ->
    reason = OSNoConstraint /\
    forall hs w' hs', hinges T (o_w st) (combine Xs Ys) hs -> length w' = d -> hinges T w' (combine Xs Ys) hs' ->
      primal_value (o_C prm) (o_w st) hs <= primal_value (o_C prm) w' hs' + K * (o_tol prm + eps) + qp_reg * (K * K).
Proof. exact (fun X Y => @one_switch_converges X Y). Qed.
Theorem C91_n_slack_converges :
  forall (X Y : Type) (T : task X Y) (d : nat) (yeq : Y -> Y -> bool) (solve : qp_solver) (prm : ns_params) (eps : Qc)
         (m b : smodel X Y) (Xs : list X) (Ys : list Y) (labs : X * Y -> list Y)
         (old : option ns_attrs) (st : ns_state Y) (curve primal : list Qc) (reason : ns_stop),
    0 <= eps -> 0 <= ns_C prm -> length Xs = length Ys -> sm_size m = d ->
    oracle_ok m T d (combine Xs Ys) -> oracle_near eps b T d (combine Xs Ys) ->
    ns_window prm = O -> ns_neg prm = None -> ns_tol prm <= 0 -> qp_exact solve ->
    answers_all solve (ns_C prm) (length Xs) T (combine Xs Ys) ->
    (forall a, yeq a a = true) -> yeq_ok T yeq (combine Xs Ys) -> zero_loss_same T (combine Xs Ys) ->
    (forall p y', In p (combine Xs Ys) -> t_label T (fst p) y' -> In y' (labs p)) ->
    (list_sum (map (fun p => length (labs p)) (combine Xs Ys)) + 1 < ns_max_iter prm)%nat ->
    ns_fit yeq solve prm m (Some b) Xs Ys None old = Ok (st, curve, primal, reason) ->
    reason = NoNewConstraint /\
    forall hs w' hs', hinges T (st_w st) (combine Xs Ys) hs -> length w' = d -> hinges T w' (combine Xs Ys) hs' ->
      primal_value (ns_C prm) (st_w st) hs <= primal_value (ns_C prm) w' hs' +
         ns_C prm * (ofN (length Xs) * (small + eps)) + qp_reg * (ofN (length Xs) * (ns_C prm * ns_C prm)).
Proof. exact (fun X Y => @many_switch_converges X Y). Qed.

(** ** a first oracle that finds nothing *)
(** One-slack: the fit is that of the second oracle with one iteration less. *)
Theorem C91_one_slack_at_once :
  forall (X Y : Type) (T : task X Y) (d : nat) (ceq : Y -> Y -> res bool) (solve : qp_solver) (Xs : list X) (Ys : list Y)
         C k tol chk neg cache th win ct (bm b : bmodel X Y) Yh,
    (0 < length Xs)%nat -> batch_ok bm T d Xs Ys -> batch_ok b T d Xs Ys -> bm_laug bm Xs Ys (vzero d) = Ok Yh ->
    (loss_sum T Ys Yh = 0 /\ feat_sum T d Xs Yh = feat_sum T d Xs Ys) \/ 1 + loss_sum T Ys Yh / ofN (length Xs) < tol ->
    os_fit ceq solve (OSParams C (S k) tol chk false neg cache th win ct) bm (Some b) Xs Ys Cold =
    os_fit ceq solve (OSParams C k tol chk false neg cache th win ct) b None Xs Ys Cold.
Proof. exact (fun X Y => @switch_at_once X Y). Qed.
(** N-slack: the same fit fails before it can switch, although both oracles are usable and the second is exact. *)
Theorem C91_n_slack_at_once_refuted :
  exists (m b : smodel (list Qc) nat) T Xs Ys solve prm,
    oracle_ok m T 2 (combine Xs Ys) /\ oracle_exact b T 2 (combine Xs Ys) /\ qp_exact solve /\
    (exists r, ns_fit Nat.eqb solve prm b None Xs Ys None None = Ok r) /\
    ns_fit Nat.eqb solve prm m (Some b) Xs Ys None None = Err UnboundLocalError.
Proof.
  exists (blind ex9_m), ex9_m, ex9_task, ex9_X, ex9_Y, ex9_solver, (ex25_many 4 0). destruct ex9_ok as [A [_ [_ [C _]]]].
  split; [apply blind_ok, NSlackProofs3.exact_is_ok; exact C|]. split; [exact C|]. split; [exact A|]. split; [|vm_compute; reflexivity].
  destruct (ns_fit Nat.eqb ex9_solver (ex25_many 4 0) ex9_m None ex9_X ex9_Y None None) eqn:E; [eauto|].
  exfalso. assert (K : match ns_fit Nat.eqb ex9_solver (ex25_many 4 0) ex9_m None ex9_X ex9_Y None None with Ok _ => True | Err _ => False end) by (vm_compute; exact I).
  rewrite E in K. exact K.
Qed.

(** ** the hypotheses are met *)
(** A first oracle that always returns the true output, then exact inference. *)
Example C91_one_slack_met :
  qp_exact ex10_solver /\ usable ex9_task 2 (ex25_one 69) ex9_X ex9_Y (base_bmodel (blind ex9_m)) /\
  ~ oracle_near half (blind ex9_m) ex9_task 2 (combine ex9_X ex9_Y) /\
  usable ex9_task 2 (ex25_one 69) ex9_X ex9_Y (ex49_bm 0) /\ batch_near 0 (ex49_bm 0) ex9_task 2 ex9_X ex9_Y /\
  (forall p y', In p (combine ex9_X ex9_Y) -> t_label ex9_task (fst p) y' ->
     normsq (vsub (t_feat ex9_task (fst p) (snd p)) (t_feat ex9_task (fst p) y')) <= 1 + 1 /\ t_loss ex9_task (snd p) y' <= 1) /\
  (let K := o_C (ex25_one 69) * ofN (length ex9_X) in
   K * 1 + qp_reg * (K * K) / (1 + 1)
     < ofN (o_max_iter (ex25_one 69) - 2) * (gain K (o_tol (ex25_one 69)) (1 + 1) - qp_reg * (K * K) / (1 + 1))).
Proof.
  destruct (ex49_near 0 ltac:(discriminate)) as [N1 [N2 _]]. destruct ex9_ok as [_ [_ [_ [C _]]]].
  split; [exact ex10_exact|]. split.
  { split; [|right; reflexivity]. apply base_batch_ok; [reflexivity|reflexivity|]. apply blind_ok, NSlackProofs3.exact_is_ok. exact C. }
  split. { intros H. destruct (H ([1], 0%nat) (or_introl eq_refl)) as [_ B]. destruct (B [0; 0] eq_refl) as [yh [E [L M]]].
    cbn in E. injection E as <-. specialize (M 1%nat ltac:(cbn; lia)). revert M. vm_compute. auto. }
  split; [split; [apply N2|right; reflexivity]|]. split; [exact N2|]. split; [exact ex25_bounds|]. vm_compute. reflexivity.
Qed.
Example C91_one_slack_computed :
  match os_fit (fun a b => Ok (a =? b)%nat) ex10_solver (ex25_one 69) (base_bmodel (blind ex9_m)) (Some (ex49_bm 0)) ex9_X ex9_Y Cold with
  | Ok (st, OSNoConstraint) => map this (o_w st) = [1#2; (-1)#2]%Q
  | _ => False
  end.
Proof. vm_compute. auto. Qed.
Example C91_without_switch :
  os_fit (fun a b => Ok (a =? b)%nat) ex10_solver (ex25_one 69) (base_bmodel (blind ex9_m)) None ex9_X ex9_Y Cold = Err UnboundLocalError.
Proof. vm_compute. reflexivity. Qed.
(** N-slack: a first oracle off by 1/2, then exact inference. *)
Example C91_n_slack_met :
  0 <= half /\ oracle_ok (ex49_m half) ex9_task 2 (combine ex9_X ex9_Y) /\ ~ oracle_exact (ex49_m half) ex9_task 2 (combine ex9_X ex9_Y) /\
  oracle_near 0 (ex49_m 0) ex9_task 2 (combine ex9_X ex9_Y) /\ qp_exact ex9_solver /\
  answers_all ex9_solver (ns_C (ex25_many 4 0)) (length ex9_X) ex9_task (combine ex9_X ex9_Y) /\
  (list_sum (map (fun _ => 2) (combine ex9_X ex9_Y)) + 1 < ns_max_iter (ex25_many 4 0))%nat /\
  match ns_fit Nat.eqb ex9_solver (ex25_many 4 0) (ex49_m half) (Some (ex49_m 0)) ex9_X ex9_Y None None with
  | Ok (st, curve, _, NoNewConstraint) => map this (st_w st) = [1#2; (-1)#2]%Q /\ length curve = 4%nat
  | _ => False
  end.
Proof.
  split; [exact half_pos|]. split; [exact (near_is_ok _ _ _ _ _ (proj1 (ex49_near half half_pos)))|]. split; [exact ex49_not_exact|].
  split; [exact (proj1 (ex49_near 0 ltac:(discriminate)))|]. split; [apply ex9_ok|]. split; [exact ex25_answers|]. split; [cbn; lia|].
  vm_compute. auto.
Qed.

Print Assumptions C91_one_slack_switched.
Print Assumptions C91_n_slack_switched.
Print Assumptions C91_one_slack.
Print Assumptions C91_n_slack.
Print Assumptions C91_one_slack_converges.
Print Assumptions C91_n_slack_converges.
Print Assumptions C91_one_slack_at_once.
Print Assumptions C91_n_slack_at_once_refuted.

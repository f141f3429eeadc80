(** C64: how many rounds the cutting-plane learners need. *)
From Coq Require Import ZArith.
From Verif Require Import Model.NSlack Model.OneSlack Proofs.NSlackExamples Proofs.OneSlackExamples
  Proofs.CuttingPlane4 Proofs.CuttingPlane5 Spec.CuttingPlaneSpec.

(** ** OneSlackSSVM *)
(** Without pruning, with an exact QP solver: the number of entries of objective_curve_ is
    bounded by the bounds of features and losses.  Every recorded round but the first two gained
    at least [gain] minus what a regularised second attempt of the solver can lose. *)
Theorem C64_one_slack_rounds :
  forall (X Y : Type) (T : task X Y) (d : nat) (ceq : Y -> Y -> res bool) (solve : qp_solver) (prm : os_params)
         (Xs : list X) (Ys : list Y) (R2 L : Qc) (bm : bmodel X Y) (sw : option (bmodel X Y)),
    let K := o_C prm * ofN (length Xs) in
    (0 < length Xs)%nat -> 0 < o_C prm -> 0 < o_tol prm -> 0 < R2 -> o_window prm = O -> o_neg prm = None -> qp_exact solve ->
    (forall p y', In p (combine Xs Ys) -> t_label T (fst p) y' ->
       normsq (vsub (t_feat T (fst p) (snd p)) (t_feat T (fst p) y')) <= R2 /\ t_loss T (snd p) y' <= L) ->
    forall (st : os_state Y) (reason : os_stop),
    usable T d prm Xs Ys bm -> (forall b, sw = Some b -> usable T d prm Xs Ys b) ->
    os_fit ceq solve prm bm sw Xs Ys Cold = Ok (st, reason) ->
    ofN (length (o_curve st) - 2) * (gain K (o_tol prm) R2 - qp_reg * (K * K) / (1 + 1)) <= K * L + qp_reg * (K * K) / (1 + 1) /\
    (reason = OSMaxIter -> (o_max_iter prm + 1 <= length (o_curve st) + (if sw then 1 else 0))%nat) /\
    (K * L + qp_reg * (K * K) / (1 + 1)
       < ofN (o_max_iter prm - 1 - (if sw then 1 else 0)) * (gain K (o_tol prm) R2 - qp_reg * (K * K) / (1 + 1)) ->
     reason = OSNoConstraint).
Proof. exact (fun X Y => @one_rounds X Y). Qed.
(** Exact inference as well: with enough iterations training ends near the optimum. *)
Theorem C64_one_slack_converges :
  forall (X Y : Type) (T : task X Y) (d : nat) (ceq : Y -> Y -> res bool) (solve : qp_solver) (prm : os_params)
         (Xs : list X) (Ys : list Y) (R2 L : Qc) (bm : bmodel X Y) (sw : option (bmodel X Y)),
    let K := o_C prm * ofN (length Xs) in
    (0 < length Xs)%nat -> 0 < o_C prm -> 0 < o_tol prm -> 0 < R2 -> o_window prm = O -> o_neg prm = None -> qp_exact solve ->
    (forall p y', In p (combine Xs Ys) -> t_label T (fst p) y' ->
       normsq (vsub (t_feat T (fst p) (snd p)) (t_feat T (fst p) y')) <= R2 /\ t_loss T (snd p) y' <= L) ->
    forall (st : os_state Y) (reason : os_stop),
    batch_exact bm T d Xs Ys -> o_cache prm = O \/ sm_rescale (bm_s bm) = false ->
    (forall b, sw = Some b -> batch_exact b T d Xs Ys /\ (o_cache prm = O \/ sm_rescale (bm_s b) = false)) ->
    K * L + qp_reg * (K * K) / (1 + 1)
      < ofN (o_max_iter prm - 1 - (if sw then 1 else 0)) * (gain K (o_tol prm) R2 - qp_reg * (K * K) / (1 + 1)) ->
    os_fit ceq solve prm bm sw Xs Ys Cold = Ok (st, reason) ->
    reason = OSNoConstraint /\ exists hs, hinges T (o_w st) (combine Xs Ys) hs /\
      forall w' hs', length w' = d -> hinges T w' (combine Xs Ys) hs' ->
        primal_value (o_C prm) (o_w st) hs <= primal_value (o_C prm) w' hs' + K * o_tol prm + qp_reg * (K * K).
Proof. exact (fun X Y => @one_converges X Y). Qed.

(** ** NSlackSSVM *)
(** Without pruning, for every QP solver and every inference returning allowed outputs: the
    number of rounds is at most the number of allowed outputs of all samples, since no
    constraint is added twice. *)
Theorem C64_n_slack_finite :
  forall (X Y : Type) (T : task X Y) (d : nat) (yeq : Y -> Y -> bool) (solve : qp_solver) (prm : ns_params)
         (m : smodel X Y) (sw : option (smodel X Y)) (Xs : list X) (Ys : list Y) (labs : X * Y -> list Y)
         (old : option ns_attrs) (st : ns_state Y) (curve primal : list Qc) (reason : ns_stop),
    length Xs = length Ys -> sm_size m = d ->
    oracle_ok m T d (combine Xs Ys) -> (forall m', sw = Some m' -> oracle_ok m' T d (combine Xs Ys)) ->
    ns_window prm = O -> (forall a, yeq a a = true) ->
    (forall p y', In p (combine Xs Ys) -> t_label T (fst p) y' -> In y' (labs p)) ->
    ns_fit yeq solve prm m sw Xs Ys None old = Ok (st, curve, primal, reason) ->
    (length curve <= list_sum (map (fun p => length (labs p)) (combine Xs Ys)) + 2 + (if sw then 1 else 0))%nat /\
    (reason = MaxIter ->
       (ns_max_iter prm <= list_sum (map (fun p => length (labs p)) (combine Xs Ys)) + (if sw then 1 else 0))%nat).
Proof. exact (fun X Y => @many_finite X Y). Qed.
(** An exact solver that never needs the second attempt: objective_curve_ never decreases, so a
    tolerance of zero or less never stops the training. *)
Theorem C64_n_slack_monotone :
  forall (X Y : Type) (T : task X Y) (d : nat) (yeq : Y -> Y -> bool) (solve : qp_solver) (prm : ns_params)
         (m : smodel X Y) (sw : option (smodel X Y)) (Xs : list X) (Ys : list Y)
         (old : option ns_attrs) (st : ns_state Y) (curve primal : list Qc) (reason : ns_stop),
    0 <= ns_C prm -> length Xs = length Ys -> sm_size m = d ->
    oracle_ok m T d (combine Xs Ys) -> (forall m', sw = Some m' -> oracle_ok m' T d (combine Xs Ys)) ->
    ns_window prm = O -> ns_neg prm = None -> qp_exact solve -> (forall a, yeq a a = true) ->
    answers_all solve (ns_C prm) (length Xs) T (combine Xs Ys) ->
    ns_fit yeq solve prm m sw Xs Ys None old = Ok (st, curve, primal, reason) ->
    sorted curve /\ (ns_tol prm <= 0 -> reason <> ObjectiveConverged).
Proof. exact (fun X Y => @nfit_mono X Y). Qed.
(** Together, with exact inference: training ends near the optimum. *)
Theorem C64_n_slack_converges :
  forall (X Y : Type) (T : task X Y) (d : nat) (yeq : Y -> Y -> bool) (solve : qp_solver) (prm : ns_params)
         (m : smodel X Y) (sw : option (smodel X Y)) (Xs : list X) (Ys : list Y) (labs : X * Y -> list Y)
         (old : option ns_attrs) (st : ns_state Y) (curve primal : list Qc) (reason : ns_stop),
    0 <= ns_C prm -> length Xs = length Ys -> sm_size m = d ->
    oracle_exact m T d (combine Xs Ys) -> (forall m', sw = Some m' -> oracle_exact m' T d (combine Xs Ys)) ->
    ns_window prm = O -> ns_neg prm = None -> ns_tol prm <= 0 -> qp_exact solve ->
    answers_all solve (ns_C prm) (length Xs) T (combine Xs Ys) ->
    (forall a, yeq a a = true) -> yeq_ok T yeq (combine Xs Ys) -> zero_loss_same T (combine Xs Ys) ->
    (forall p y', In p (combine Xs Ys) -> t_label T (fst p) y' -> In y' (labs p)) ->
    (list_sum (map (fun p => length (labs p)) (combine Xs Ys)) + (if sw then 1 else 0) < ns_max_iter prm)%nat ->
    ns_fit yeq solve prm m sw Xs Ys None old = Ok (st, curve, primal, reason) ->
    reason = NoNewConstraint /\
    forall hs w' hs', hinges T (st_w st) (combine Xs Ys) hs -> length w' = d -> hinges T w' (combine Xs Ys) hs' ->
      primal_value (ns_C prm) (st_w st) hs <= primal_value (ns_C prm) w' hs' +
         ns_C prm * (ofN (length Xs) * small) + qp_reg * (ofN (length Xs) * (ns_C prm * ns_C prm)).
Proof. exact (fun X Y => @many_converges X Y). Qed.
(** A positive tolerance, any pruning, any batch size, exact QP solver: if max_iter is used up,
    it was at most two plus the objective at zero weights over the tolerance (about twice that
    with switch_to). *)
Theorem C64_n_slack_tolerance :
  forall (X Y : Type) (T : task X Y) (d : nat) (yeq : Y -> Y -> bool) (solve : qp_solver) (prm : ns_params)
         (m : smodel X Y) (sw : option (smodel X Y)) (Xs : list X) (Ys : list Y) (hs : list Qc)
         (old : option ns_attrs) (st : ns_state Y) (curve primal : list Qc),
    0 <= ns_C prm -> length Xs = length Ys -> qp_exact solve -> 0 < ns_tol prm -> sm_size m = d ->
    oracle_ok m T d (combine Xs Ys) -> (forall m', sw = Some m' -> oracle_ok m' T d (combine Xs Ys)) ->
    hinges T (vzero d) (combine Xs Ys) hs ->
    ns_fit yeq solve prm m sw Xs Ys None old = Ok (st, curve, primal, MaxIter) ->
    ofN (ns_max_iter prm - 2) * ns_tol prm <= ns_C prm * lsum hs + (if sw then ns_C prm * lsum hs + ns_tol prm else 0).
Proof. exact (fun X Y => @many_tol X Y). Qed.

(** ** the hypotheses are met *)
(** Two classes, one sample: at least 1/64 - 5e-9 gained per round, so 68 rounds are enough. *)
Example C64_one_slack_met :
  qp_exact ex10_solver /\ batch_exact ex10_bm ex9_task 2 ex9_X ex9_Y /\ usable ex9_task 2 (ex25_one 68) ex9_X ex9_Y ex10_bm /\
  (forall p y', In p (combine ex9_X ex9_Y) -> t_label ex9_task (fst p) y' ->
     normsq (vsub (t_feat ex9_task (fst p) (snd p)) (t_feat ex9_task (fst p) y')) <= 1 + 1 /\ t_loss ex9_task (snd p) y' <= 1) /\
  (let K := o_C (ex25_one 68) * ofN (length ex9_X) in
   K * 1 + qp_reg * (K * K) / (1 + 1)
     < ofN (o_max_iter (ex25_one 68) - 1) * (gain K (o_tol (ex25_one 68)) (1 + 1) - qp_reg * (K * K) / (1 + 1))).
Proof.
  split; [exact ex10_exact|]. split; [apply (ex25_usable 68)|]. split; [apply (ex25_usable 68)|]. split; [exact ex25_bounds|]. vm_compute. reflexivity.
Qed.
Example C64_one_slack_computed :
  match os_fit (fun a b => Ok (a =? b)%nat) ex10_solver (ex25_one 68) ex10_bm None ex9_X ex9_Y Cold with
  | Ok (st, OSNoConstraint) => map this (o_w st) = [1#2; (-1)#2]%Q /\ length (o_curve st) = 2%nat
  | _ => False
  end.
Proof. vm_compute. auto. Qed.
Example C64_n_slack_met :
  qp_exact ex9_solver /\ sm_size ex9_m = 2%nat /\ oracle_exact ex9_m ex9_task 2 (combine ex9_X ex9_Y) /\
  answers_all ex9_solver (ns_C (ex25_many 4 0)) (length ex9_X) ex9_task (combine ex9_X ex9_Y) /\
  (forall a, Nat.eqb a a = true) /\ yeq_ok ex9_task Nat.eqb (combine ex9_X ex9_Y) /\ zero_loss_same ex9_task (combine ex9_X ex9_Y) /\
  (forall p y', In p (combine ex9_X ex9_Y) -> t_label ex9_task (fst p) y' -> In y' [0; 1]%nat) /\
  (list_sum (map (fun _ => 2) (combine ex9_X ex9_Y)) < ns_max_iter (ex25_many 4 0))%nat.
Proof.
  destruct ex9_ok as [A [_ [B [C [D E]]]]]. split; [exact A|]. split; [exact B|]. split; [exact C|]. split; [exact ex25_answers|].
  split; [exact Nat.eqb_refl|]. split; [exact D|]. split; [exact E|]. split; [|cbn; lia].
  intros p y' _ L. cbn in L. destruct y' as [|[|y']]; [left|right; left|lia]; auto.
Qed.
Example C64_n_slack_computed :
  match ns_fit Nat.eqb ex9_solver (ex25_many 4 0) ex9_m None ex9_X ex9_Y None None with
  | Ok (st, curve, _, NoNewConstraint) => map this (st_w st) = [1#2; (-1)#2]%Q /\ map this curve = [1#4; 1#4; 1#4]%Q
  | _ => False
  end.
Proof. vm_compute. auto. Qed.
(** max_iter used up: one round, and a bound that allows it. *)
Example C64_tolerance_computed :
  match ns_fit Nat.eqb ex9_solver (ex25_many 1 1) ex9_m None ex9_X ex9_Y None None with
  | Ok (_, _, _, MaxIter) => True
  | _ => False
  end /\ hinges ex9_task (vzero 2) (combine ex9_X ex9_Y) [1].
Proof.
  split; [vm_compute; exact I|]. constructor; [|constructor]. split.
  - exists 1%nat. split; [cbn; lia|]. apply Qc_is_canon. vm_compute. reflexivity.
  - intros y' L. cbn in L. destruct y' as [|[|y']]; [| |lia]; vm_compute; discriminate.
Qed.

Print Assumptions C64_one_slack_rounds.
Print Assumptions C64_one_slack_converges.
Print Assumptions C64_n_slack_finite.
Print Assumptions C64_n_slack_monotone.
Print Assumptions C64_n_slack_converges.
Print Assumptions C64_n_slack_tolerance.

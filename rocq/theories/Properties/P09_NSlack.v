(** C23, C26 and the NSlackSSVM part of C49. *)
From Coq Require Import ZArith.
From Verif Require Import Model.NSlack Model.Instances Spec.NSlackSpec Spec.PruneSpec Spec.TaskInstances
  Proofs.QPProofs3 Proofs.NSlackProofs3 Proofs.NSlackProofs4 Proofs.NSlackProofs5 Proofs.PruneProofs
  Proofs.NSlackExamples Spec.QPSpec.

(** ** C23 *)
(** Every dual point the QP accepts: the weights respect the declared signs, and the reported
    objective (minus the QP value) is a lower bound of the structured SVM objective of every
    weight vector with admissible slacks for the constraints of the working set. *)
Theorem C23_dual_point :
  forall (d : nat) (C : Qc) (neg : option (list nat)) (n : nat) (groups : list (list (list Qc * Qc)))
         (reg : Qc) (p : qp) (a : list Qc),
    0 <= reg -> Forall (fun c => length (fst c) = d) (concat groups) ->
    n_slack_problem C neg n (map fst (concat groups)) (map snd (concat groups)) (map (@length _) groups) reg = Ok p ->
    qp_feasible p a ->
    exists w, weights a (map fst (concat groups)) = Ok w /\ length w = d /\
      (forall idx, neg = Some idx -> forall i, In i idx -> get1 w i <= 0) /\
      forall w' xi, length w' = d -> covers w' groups xi -> - qp_value p a <= C * lsum xi + normsq w' / (1 + 1).
Proof. exact nslack_weak. Qed.

(** The optimum of the first attempt, without negativity constraint: the reported objective is
    the objective of the weights over the working set, and those weights are the best ones. *)
Theorem C23_dual_optimum :
  forall (d : nat) (C : Qc) (n : nat) (groups : list (list (list Qc * Qc))) (p : qp) (a : list Qc),
    0 <= C -> Forall (fun c => length (fst c) = d) (concat groups) ->
    n_slack_problem C None n (map fst (concat groups)) (map snd (concat groups)) (map (@length _) groups) 0 = Ok p ->
    qp_optimal p a ->
    exists w, weights a (map fst (concat groups)) = Ok w /\
      - qp_value p a = C * lsum (map (group_slack w) groups) + normsq w / (1 + 1) /\
      forall w' xi, length w' = d -> covers w' groups xi ->
        C * lsum (map (group_slack w) groups) + normsq w / (1 + 1) <= C * lsum xi + normsq w' / (1 + 1).
Proof. exact nslack_strong0. Qed.
(** The second attempt adds reg to the diagonal and loses at most reg * n * C^2. *)
Theorem C23_dual_optimum_regularised :
  forall (d : nat) (C : Qc) (n : nat) (groups : list (list (list Qc * Qc))) (reg : Qc) (p : qp) (a : list Qc),
    0 <= reg -> 0 <= C -> Forall (fun c => length (fst c) = d) (concat groups) ->
    n_slack_problem C None n (map fst (concat groups)) (map snd (concat groups)) (map (@length _) groups) reg = Ok p ->
    qp_optimal p a ->
    exists w, weights a (map fst (concat groups)) = Ok w /\
      C * lsum (map (group_slack w) groups) + normsq w / (1 + 1) <=
        - qp_value p a + reg * normsq a / (1 + 1) + reg * (ofN n * (C * C)) /\
      forall w' xi, length w' = d -> covers w' groups xi ->
        C * lsum (map (group_slack w) groups) + normsq w / (1 + 1) <=
        C * lsum xi + normsq w' / (1 + 1) + reg * (ofN n * (C * C)).
Proof. exact nslack_strong. Qed.

(** With a negativity constraint the dual optimum need not give the best weights among those
    respecting the constraint: the code adds the sign condition as a restriction of the dual
    instead of giving it a multiplier. *)
Theorem C23_negativity_optimum_refuted :
  exists (C : Qc) (n : nat) (groups : list (list (list Qc * Qc))) (idx : list nat) (p : qp) (a w w' xi : list Qc),
    0 < C /\ Forall (fun c => length (fst c) = 2%nat) (concat groups) /\
    n_slack_problem C (Some idx) n (map fst (concat groups)) (map snd (concat groups)) (map (@length _) groups) 0 = Ok p /\
    qp_optimal p a /\ weights a (map fst (concat groups)) = Ok w /\
    length w' = 2%nat /\ covers w' groups xi /\ (forall i, In i idx -> get1 w' i <= 0) /\
    C * lsum xi + normsq w' / (1 + 1) < C * lsum (map (group_slack w) groups) + normsq w / (1 + 1).
Proof. exact negativity_suboptimal. Qed.

(** The whole fit, for every feasible QP solver, every inference method returning allowed
    outputs, every switch_to, batch size and pruning setting: each entry of objective_curve_
    is a lower bound of the objective at every weight vector, declared signs hold, and every
    stored constraint is (delta joint_feature, loss) of an allowed output. *)
Theorem C23_fit_lower_bound :
  forall (X Y : Type) (T : task X Y) (d : nat) (yeq : Y -> Y -> bool) (solve : qp_solver) (prm : ns_params)
         (m : smodel X Y) (sw : option (smodel X Y)) (Xs : list X) (Ys : list Y),
    0 <= ns_C prm -> length Xs = length Ys -> sm_size m = d ->
    oracle_ok m T d (combine Xs Ys) -> (forall m', sw = Some m' -> oracle_ok m' T d (combine Xs Ys)) ->
    forall old st curve primal reason, qp_sound solve ->
    ns_fit yeq solve prm m sw Xs Ys None old = Ok (st, curve, primal, reason) ->
    length (st_w st) = d /\
    (forall o, In o curve -> forall w' hs, length w' = d -> hinges T w' (combine Xs Ys) hs ->
       o <= primal_value (ns_C prm) w' hs) /\
    (forall idx, ns_neg prm = Some idx -> forall i, In i idx -> get1 (st_w st) i <= 0) /\
    Forall2 (fun s c => Forall (valid_con T s) c) (combine Xs Ys) (st_cons st).
Proof. exact (fun X Y => @fit_lower_bound X Y). Qed.

(** When fit stops because no constraint is violated by more than 1e-5, the returned weights
    are optimal up to C * n * 1e-5 (plus the price of the regularised attempt). *)
Theorem C23_fit_near_optimal :
  forall (X Y : Type) (T : task X Y) (d : nat) (yeq : Y -> Y -> bool) (solve : qp_solver) (prm : ns_params)
         (Xs : list X) (Ys : list Y),
    0 <= ns_C prm -> length Xs = length Ys ->
    forall (m : smodel X Y) (sw : option (smodel X Y)) old st curve primal,
    qp_exact solve -> ns_neg prm = None -> sm_size m = d ->
    oracle_exact m T d (combine Xs Ys) -> (forall m', sw = Some m' -> oracle_exact m' T d (combine Xs Ys)) ->
    yeq_ok T yeq (combine Xs Ys) -> zero_loss_same T (combine Xs Ys) ->
    ns_fit yeq solve prm m sw Xs Ys None old = Ok (st, curve, primal, NoNewConstraint) ->
    forall hs w' hs', hinges T (st_w st) (combine Xs Ys) hs -> length w' = d -> hinges T w' (combine Xs Ys) hs' ->
    primal_value (ns_C prm) (st_w st) hs <=
      primal_value (ns_C prm) w' hs' + ns_C prm * (ofN (length Xs) * small)
      + qp_reg * (ofN (length Xs) * (ns_C prm * ns_C prm)).
Proof. exact (fun X Y => @fit_near_optimal X Y). Qed.

(** ** C26 *)
(** One round of one sample: with at most one new constraint, the counters are the numbers of
    rounds whose dual value was below the limit, and exactly the constraints with at most
    [window] such rounds stay. *)
Theorem C26_round :
  forall (A : Type) (limit : Qc) (window : nat) (e : tagged A) (new : list A) (a : list Qc),
    (length new <= 1)%nat -> length a = (length e + length new)%nat ->
    prune_sample limit window (elements e ++ new) (counters limit e) a =
      let s := survivors limit window (push (e ++ fresh new) a) in Ok (elements s, counters limit s).
Proof. exact (fun A => @prune_sample_ok A). Qed.
(** A constraint that survived so far is removed iff its own dual value is below the limit in
    this round and it had used up its [window] such rounds. *)
Theorem C26_removed_only_when_inactive :
  forall (A : Type) (limit : Qc) (window : nat) (p : A * list Qc) (v : Qc),
    (lows limit (snd p) <= window)%nat ->
    (lows limit (snd p ++ [v]) <=? window)%nat = false <-> v < limit /\ lows limit (snd p) = window.
Proof. exact (fun A => @removed_iff A). Qed.
(** All samples of a round. *)
Theorem C26_round_all_samples :
  forall (A : Type) (limit : Qc) (window : nat) (qs : list (tagged A * list A)) (a : list Qc),
    Forall (fun q => (length (snd q) <= 1)%nat) qs ->
    length a = length (concat (map (fun q => fst q ++ fresh (snd q)) qs)) ->
    prune_loop limit window (map (fun q => elements (fst q) ++ snd q) qs) (map (fun q => counters limit (fst q)) qs) a =
      let ss := map (survivors limit window) (push_all (map (fun q => fst q ++ fresh (snd q)) qs) a) in
      Ok (map elements ss, map (counters limit) ss).
Proof. exact (fun A => @prune_loop_ok A). Qed.
(** Two or more new constraints for one sample (only possible with a warm start from given
    constraints): the counters do not fit. *)
Theorem C26_two_new_constraints_fail :
  forall (A : Type) (limit : Qc) (window : nat) (e : tagged A) (new : list A) (a : list Qc),
    (2 <= length new)%nat ->
    prune_sample limit window (elements e ++ new) (counters limit e) a = Err IndexError.
Proof. exact (fun A => @prune_sample_two A). Qed.
(** The documentation reads as if a constraint had to be inactive in consecutive rounds; the
    counter is never reset. *)
Theorem C26_consecutive_refuted :
  exists (limit v1 v2 v3 : Qc) (c : nat),
    limit <= v2 /\
    prune_sample limit 1 [c] [] [v1] = Ok ([c], [1%nat]) /\
    prune_sample limit 1 [c] [1%nat] [v2] = Ok ([c], [1%nat]) /\
    prune_sample limit 1 [c] [1%nat] [v3] = Ok ([], []).
Proof. exact prune_not_consecutive. Qed.

(** ** C49, NSlackSSVM *)
(** fit terminates normally as soon as some sample has a positive loss at w = 0 (for a solver
    that answers the problems posed) ... *)
Theorem C49_nslack_fit_succeeds :
  forall (X Y : Type) (T : task X Y) (d : nat) (yeq : Y -> Y -> bool) (solve : qp_solver) (prm : ns_params)
         (Xs : list X) (Ys : list Y),
    0 <= ns_C prm -> length Xs = length Ys ->
    (forall p y', In p (combine Xs Ys) -> t_label T (fst p) y' -> length (t_feat T (fst p) y') = d) ->
    (forall p, In p (combine Xs Ys) -> t_label T (fst p) (snd p)) ->
    ns_break prm = false -> ns_neg prm = None -> qp_sound solve ->
    (forall n psis losses sizes reg p,
       n_slack_problem (ns_C prm) None n psis losses sizes reg = Ok p -> solve p <> None) ->
    forall (m : smodel X Y) (sw : option (smodel X Y)) old bs,
    oracle_ok m T d (combine Xs Ys) -> (forall m', sw = Some m' -> oracle_ok m' T d (combine Xs Ys)) ->
    sm_size m = d -> (0 < length Xs)%nat -> (0 < ns_max_iter prm)%nat ->
    batch_slices (ns_batch prm) (length Xs) = Ok bs ->
    (exists p yh, In p (combine Xs Ys) /\ sm_laug m (fst p) (snd p) (vzero d) = Ok yh /\
                  small <= t_loss T (snd p) yh) ->
    exists r, ns_fit yeq solve prm m sw Xs Ys None old = Ok r.
Proof. exact (fun X Y => @fit_total X Y). Qed.
(** ... and otherwise, or with max_iter = 0, it reads an unassigned variable. *)
Theorem C49_nslack_no_constraint :
  forall (X Y : Type) (T : task X Y) (d : nat) (yeq : Y -> Y -> bool) (solve : qp_solver) (prm : ns_params)
         (Xs : list X) (Ys : list Y) (m : smodel X Y) (sw : option (smodel X Y)) old bs,
    length Xs = length Ys -> oracle_ok m T d (combine Xs Ys) -> sm_size m = d ->
    batch_slices (ns_batch prm) (length Xs) = Ok bs ->
    (forall p yh, In p (combine Xs Ys) -> sm_laug m (fst p) (snd p) (vzero d) = Ok yh -> t_loss T (snd p) yh < small) ->
    ns_fit yeq solve prm m sw Xs Ys None old = Err UnboundLocalError.
Proof. exact (fun X Y => @fit_unbound X Y). Qed.
Theorem C49_nslack_max_iter_zero :
  forall (X Y : Type) (yeq : Y -> Y -> bool) (solve : qp_solver) (prm : ns_params)
         (Xs : list X) (Ys : list Y) (m : smodel X Y) (sw : option (smodel X Y)) old,
    ns_max_iter prm = O -> ns_fit yeq solve prm m sw Xs Ys None old = Err UnboundLocalError.
Proof. exact (fun X Y => @fit_max_iter_zero X Y). Qed.

(** ** The hypotheses are met: MultiClassClf with two classes and one feature, a solver exact
    on the one problem that comes up, and the (feasible, not optimal) solver answering 0. *)
Example C23_hypotheses_met :
  qp_exact ex9_solver /\ 0 <= ns_C ex9_prm /\ sm_size ex9_m = 2%nat /\
  oracle_exact ex9_m ex9_task 2 (combine ex9_X ex9_Y) /\
  yeq_ok ex9_task Nat.eqb (combine ex9_X ex9_Y) /\ zero_loss_same ex9_task (combine ex9_X ex9_Y).
Proof. exact ex9_ok. Qed.
Example C23_fit_computed :
  match ns_fit Nat.eqb ex9_solver ex9_prm ex9_m None ex9_X ex9_Y None None with
  | Ok (st, curve, primal, NoNewConstraint) => map this (st_w st) = [1#2; (-1)#2]%Q /\ map this curve = [1#4; 1#4; 1#4]%Q
  | _ => False
  end.
Proof. vm_compute. auto. Qed.
Example C49_solver_met :
  qp_sound zero_solver /\
  (forall C n psis losses sizes reg p, 0 <= C -> n_slack_problem C None n psis losses sizes reg = Ok p -> zero_solver p <> None).
Proof. exact (conj zero_solver_sound zero_solver_total). Qed.
Example C49_no_violation_met :
  (* one class only: every prediction is right *)
  ns_fit Nat.eqb zero_solver ex9_prm ex9_single None ex9_X ex9_Y None None = Err UnboundLocalError.
Proof. vm_compute. reflexivity. Qed.
Example C26_round_computed :
  prune_sample (ofN 1) 1 [10; 20; 30]%nat [1; 0]%nat [0; 0; ofN 2] = Ok ([20; 30]%nat, [1; 0]%nat).
Proof. vm_compute. reflexivity. Qed.

Print Assumptions C23_dual_point.
Print Assumptions C23_dual_optimum.
Print Assumptions C23_dual_optimum_regularised.
Print Assumptions C23_negativity_optimum_refuted.
Print Assumptions C23_fit_lower_bound.
Print Assumptions C23_fit_near_optimal.
Print Assumptions C26_round.
Print Assumptions C26_removed_only_when_inactive.
Print Assumptions C26_round_all_samples.
Print Assumptions C26_two_new_constraints_fail.
Print Assumptions C26_consecutive_refuted.
Print Assumptions C49_nslack_fit_succeeds.
Print Assumptions C49_nslack_no_constraint.
Print Assumptions C49_nslack_max_iter_zero.

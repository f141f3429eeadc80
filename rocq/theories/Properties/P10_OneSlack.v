(** C24, C25, C27, C50 and the OneSlackSSVM part of C49. *)
From Coq Require Import ZArith.
From Verif Require Import Model.OneSlack Model.BatchInstances Spec.TaskInstances
  Proofs.OneSlackQP Proofs.OneSlackPrune Proofs.OneSlackCache Proofs.OneSlackProofs Proofs.OneSlackProofs2
  Proofs.OneSlackProofs3 Proofs.OneSlackProofs4 Proofs.OneSlackProofs5 Proofs.NSlackExamples Proofs.OneSlackExamples
  Spec.OneSlackSpec.

(** ** C24 *)
(** Every dual point the QP accepts: the weights respect the declared signs, and the reported
    objective is a lower bound of the 1-slack objective of every weight vector. *)
Theorem C24_dual_point :
  forall (d : nat) (C : Qc) (neg : option (list nat)) (n : nat) (cs : list (list Qc * Qc)) (reg : Qc) (p : qp) (a : list Qc),
    0 <= reg -> Forall (fun c => length (fst c) = d) cs ->
    one_slack_problem C neg n (map fst cs) (map snd cs) reg = Ok p -> qp_feasible p a ->
    exists w, weights a (map fst cs) = Ok w /\ length w = d /\
      (forall idx, neg = Some idx -> forall i, In i idx -> get1 w i <= 0) /\
      forall w' xi, length w' = d -> (forall c, In c cs -> violation w' c <= xi) ->
        - qp_value p a <= C * ofN n * xi + normsq w' / (1 + 1).
Proof. exact oneslack_weak. Qed.
(** The optimum of the first attempt: the reported objective is the value of the cutting-plane
    problem at the weights, which are the best ones. *)
Theorem C24_dual_optimum :
  forall (d : nat) (C : Qc) (n : nat) (cs : list (list Qc * Qc)) (p : qp) (a : list Qc),
    0 <= C -> Forall (fun c => length (fst c) = d) cs ->
    one_slack_problem C None n (map fst cs) (map snd cs) 0 = Ok p -> qp_optimal p a ->
    exists w v, weights a (map fst cs) = Ok w /\ worst w cs v /\
      - qp_value p a = C * ofN n * v + normsq w / (1 + 1) /\
      forall w' xi, length w' = d -> (forall c, In c cs -> violation w' c <= xi) ->
        C * ofN n * v + normsq w / (1 + 1) <= C * ofN n * xi + normsq w' / (1 + 1).
Proof. exact oneslack_strong0. Qed.
(** The second attempt adds reg to the diagonal and loses at most reg * (C n)^2. *)
Theorem C24_dual_optimum_regularised :
  forall (d : nat) (C : Qc) (n : nat) (cs : list (list Qc * Qc)) (reg : Qc) (p : qp) (a : list Qc),
    0 <= reg -> 0 <= C -> Forall (fun c => length (fst c) = d) cs ->
    one_slack_problem C None n (map fst cs) (map snd cs) reg = Ok p -> qp_optimal p a ->
    exists w v, weights a (map fst cs) = Ok w /\ worst w cs v /\
      C * ofN n * v + normsq w / (1 + 1) <=
        - qp_value p a + reg * normsq a / (1 + 1) + reg * (C * ofN n * (C * ofN n)) /\
      forall w' xi, length w' = d -> (forall c, In c cs -> violation w' c <= xi) ->
        C * ofN n * v + normsq w / (1 + 1) <=
        C * ofN n * xi + normsq w' / (1 + 1) + reg * (C * ofN n * (C * ofN n)).
Proof. exact oneslack_strong. Qed.
(** The whole fit, for every feasible QP solver, every batch inference returning allowed
    outputs, every cache, switch_to and pruning setting. *)
Theorem C24_fit_lower_bound :
  forall (X Y : Type) (T : task X Y) (d : nat) (ceq : Y -> Y -> res bool) (solve : qp_solver) (prm : os_params)
         (Xs : list X) (Ys : list Y) (bm : bmodel X Y) (sw : option (bmodel X Y)) (st : os_state Y) (reason : os_stop),
    (0 < length Xs)%nat -> 0 <= o_C prm -> qp_sound solve ->
    usable T d prm Xs Ys bm -> (forall b, sw = Some b -> usable T d prm Xs Ys b) ->
    os_fit ceq solve prm bm sw Xs Ys Cold = Ok (st, reason) ->
    length (o_w st) = d /\
    (forall o, In o (o_curve st) -> forall w' hs, length w' = d -> hinges T w' (combine Xs Ys) hs ->
       o <= primal_value (o_C prm) w' hs) /\
    (forall idx, o_neg prm = Some idx -> forall i, In i idx -> get1 (o_w st) i <= 0) /\
    Forall (fun c => exists Yh, mean_con T d Xs Ys Yh c) (o_cons st) /\
    (exists v, worst (o_w st) (o_cons st) v /\ o_slack st = Qcmax v 0).
Proof. exact (fun X Y => @fit1_lower_bound X Y). Qed.
(** Stopping because no constraint was added, with exact inference: the last entry of
    primal_objective_curve_ is the objective at the returned weights, and it exceeds the value
    of the cutting-plane problem there by at most C n tol; with an exact QP solver and the
    initial constraint still present, the returned weights are optimal up to C n tol (plus the
    price of the regularised attempt). *)
Theorem C24_fit_near_optimal :
  forall (X Y : Type) (T : task X Y) (d : nat) (ceq : Y -> Y -> res bool) (solve : qp_solver) (prm : os_params)
         (Xs : list X) (Ys : list Y) (bm : bmodel X Y) (sw : option (bmodel X Y)) (st : os_state Y),
    (0 < length Xs)%nat -> 0 <= o_C prm -> 0 <= o_tol prm -> qp_sound solve ->
    batch_exact bm T d Xs Ys -> o_cache prm = O \/ sm_rescale (bm_s bm) = false ->
    (forall b, sw = Some b -> batch_exact b T d Xs Ys /\ (o_cache prm = O \/ sm_rescale (bm_s b) = false)) ->
    os_fit ceq solve prm bm sw Xs Ys Cold = Ok (st, OSNoConstraint) ->
    exists hs v,
      hinges T (o_w st) (combine Xs Ys) hs /\ worst (o_w st) (o_cons st) v /\
      last (o_primal st) 0 = primal_value (o_C prm) (o_w st) hs /\
      primal_value (o_C prm) (o_w st) hs <=
        o_C prm * ofN (length Xs) * Qcmax v 0 + normsq (o_w st) / (1 + 1) + o_C prm * ofN (length Xs) * o_tol prm /\
      (qp_exact solve -> o_neg prm = None -> In (vzero d, 0) (o_cons st) ->
       forall w' hs', length w' = d -> hinges T w' (combine Xs Ys) hs' ->
         primal_value (o_C prm) (o_w st) hs <=
         primal_value (o_C prm) w' hs' + o_C prm * ofN (length Xs) * o_tol prm
         + qp_reg * (o_C prm * ofN (length Xs) * (o_C prm * ofN (length Xs)))).
Proof. exact (fun X Y => @fit1_near_optimal X Y). Qed.
(** The initial constraint cannot be dropped from that statement: without it the optimum of the
    dual is not the best weight vector of the cutting-plane problem with non-negative slack
    that the stopping rule refers to. *)
Theorem C24_without_initial_constraint_refuted :
  exists (C : Qc) (n : nat) (cs : list (list Qc * Qc)) (p : qp) (a w : list Qc) (v : Qc) (w' : list Qc),
    0 < C /\ one_slack_problem C None n (map fst cs) (map snd cs) 0 = Ok p /\ qp_optimal p a /\
    weights a (map fst cs) = Ok w /\ worst w cs v /\ length w' = 1%nat /\
    (forall c, In c cs -> violation w' c <= 0) /\
    C * ofN n * 0 + normsq w' / (1 + 1) < C * ofN n * Qcmax v 0 + normsq w / (1 + 1).
Proof. exact pruned_initial_suboptimal. Qed.
(** What a round records, whatever the constraint: the primal value of the weights before the
    round with the new constraint's clipped violation, the dual value of the QP solved, the new
    weights and slack, and how the cache tolerance is updated. *)
Theorem C24_round_record :
  forall (Y : Type) (solve : qp_solver) (prm : os_params) (n : nat) (cached : bool) (c : list Qc * Qc) (st st' : os_state Y),
    os_step solve prm n cached c st = Ok st' ->
    exists primal obj q v,
      primal = o_C prm * ofN n * Qcmax (violation (o_w st) c) 0 + normsq (o_w st) / (1 + 1) /\
      o_primal st' = (o_primal st ++ [primal])%list /\ o_curve st' = (o_curve st ++ [obj])%list /\ o_obj st' = Some obj /\
      run_qp solve (one_slack_problem (o_C prm) (o_neg prm) n (map fst (o_cons st ++ [c])) (map snd (o_cons st ++ [c]))) = Ok (q, obj) /\
      weights q (map fst (o_cons st ++ [c])) = Ok (o_w st') /\
      o_cached st' = (o_cached st ++ [cached])%list /\
      o_ctol st' = match o_cache_tol prm with
                   | TolAuto => if cached then o_ctol st else (primal - obj) / (1 + 1 + 1 + 1)
                   | _ => o_ctol st
                   end /\
      worst (o_w st') (o_cons st') v /\ o_slack st' = Qcmax v 0.
Proof. exact (fun Y => @step_record Y). Qed.
(** MultiClassClf with its own batch methods is such a model. *)
Theorem C24_multiclass_batch :
  forall (m : mc_clf) (Xs : list (list Qc)) (Ys : list nat),
    mc_rescale m = false -> (0 < mc_states m)%nat -> length (mc_cw m) = mc_states m ->
    (mc_uniform m = true -> forall s, (s < mc_states m)%nat -> get1 (mc_cw m) s = 1) ->
    Forall (fun x => length x = mc_features m) Xs -> length Xs = length Ys ->
    Forall (fun y => (y < mc_states m)%nat) Ys ->
    batch_exact (mc_bmodel m) (mc_task (mc_states m) (mc_features m) (get1 (mc_cw m))) (mc_size m) Xs Ys.
Proof. exact mc_batch_exact. Qed.

(** ** C25 *)
(** One round of pruning keeps exactly the constraints whose latest [window] dual values reach
    threshold times the strongest non-initial one, with their whole histories. *)
Theorem C25_round :
  forall (A : Type) (prm : os_params) (cs : list A) (alphas : list (list Qc)) (a : list Qc),
    o_window prm <> O -> S (length alphas) = length cs -> length a = length cs -> alphas <> [] ->
    exists cs' al' peaks strongest,
      os_prune prm cs alphas a = Ok (cs', al') /\ length cs' = length al' /\
      Forall2 (peak (o_window prm)) (extended alphas a) peaks /\ largest (tl peaks) strongest /\
      combine cs' al' =
        map snd (filter (fun q => Qcleb (o_threshold prm * strongest) (fst q))
                        (combine peaks (combine cs (extended alphas a)))).
Proof. exact (fun A => @os_prune_exact A). Qed.
Theorem C25_no_window :
  forall (A : Type) (prm : os_params) (cs : list A) (alphas : list (list Qc)) (a : list Qc),
    o_window prm = O -> S (length alphas) = length cs -> length a = length cs ->
    os_prune prm cs alphas a = Ok (cs, extended alphas a).
Proof. exact (fun A => @os_prune_window0 A). Qed.
(** The strongest non-initial constraint stays. *)
Theorem C25_strongest_stays :
  forall (A : Type) (prm : os_params) (cs : list A) (alphas : list (list Qc)) (a : list Qc),
    o_window prm <> O -> S (length alphas) = length cs -> length a = length cs -> alphas <> [] ->
    0 <= o_threshold prm -> o_threshold prm <= 1 ->
    Forall (Forall (fun x => 0 <= x)) alphas -> Forall (fun x => 0 <= x) a ->
    exists cs' al' k c h,
      os_prune prm cs alphas a = Ok (cs', al') /\ cs' <> [] /\ (0 < k)%nat /\
      nth_error cs k = Some c /\ nth_error (extended alphas a) k = Some h /\ In (c, h) (combine cs' al') /\
      exists v, peak (o_window prm) h v /\
        forall j hj vj, (0 < j)%nat -> nth_error (extended alphas a) j = Some hj ->
          peak (o_window prm) hj vj -> vj <= v.
Proof. exact (fun A => @os_prune_keeps A). Qed.
Theorem C25_misaligned_fails :
  forall (A : Type) (prm : os_params) (cs : list A) (alphas : list (list Qc)) (a : list Qc),
    S (length alphas) <> length cs -> os_prune prm cs alphas a = Err AssertionError.
Proof. exact (fun A => @os_prune_misaligned A). Qed.
(** After every successful fit, however started: one history per constraint, and at least one
    constraint. *)
Theorem C25_fit_aligned :
  forall (X Y : Type) (ceq : Y -> Y -> res bool) (solve : qp_solver) (prm : os_params) (Xs : list X) (Ys : list Y)
         (bm : bmodel X Y) (sw : option (bmodel X Y)) (ws : warm Y) (st : os_state Y) (reason : os_stop),
    os_fit ceq solve prm bm sw Xs Ys ws = Ok (st, reason) ->
    length (o_cons st) = length (o_alphas st) /\ o_cons st <> [].
Proof. exact (fun X Y => @fit_aligned X Y). Qed.
(** The initial constraint (the first one) can be removed. *)
Theorem C25_initial_constraint_stays_refuted :
  exists (prm : os_params) (initial new : nat) (h a : list Qc) (al' : list (list Qc)),
    o_window prm <> O /\ 0 <= o_threshold prm <= 1 /\ initial <> new /\
    os_prune prm [initial; new] [h] a = Ok ([new], al').
Proof.
  exists (OSParams 1 5 0 true false None 0 (1 / (1 + 1)) 1 TolAuto), 0%nat, 1%nat, [0], [0; 1], [[1]].
  split; [discriminate|]. split; [split; discriminate|]. split; [discriminate|]. vm_compute. reflexivity.
Qed.

(** ** C27 *)
Theorem C27_cache_invariant :
  forall (X Y : Type) (ceq : Y -> Y -> res bool) (solve : qp_solver) (prm : os_params) (Xs : list X) (Ys : list Y)
         (ws : warm Y) (bm : bmodel X Y) (sw : option (bmodel X Y)) (st : os_state Y) (reason : os_stop),
    os_fit ceq solve prm bm sw Xs Ys ws = Ok (st, reason) ->
    (forall cache, match ws with Cold => None | Soft a | Warm a => oa_icache a end = Some cache ->
       Forall (fun s => distinct_results ceq s /\ (length s <= S (o_cache prm))%nat) cache) ->
    forall cache, o_icache st = Some cache ->
      Forall (fun s => distinct_results ceq s /\ (length s <= S (o_cache prm))%nat) cache.
Proof. exact (fun X Y => @fit_cache X Y). Qed.
(** One update: a known result changes nothing; a new one is appended with its features and
    loss, dropping the oldest when more than inference_cache are stored. *)
Theorem C27_update :
  forall (X Y : Type) (ceq : Y -> Y -> res bool) (prm : os_params) (m : smodel X Y)
         (sample : list (list Qc * Qc * Y)) (x : X) (y yh : Y) (s' : list (list Qc * Qc * Y)),
    update_sample ceq prm m sample x y yh = Ok s' ->
    (s' = sample /\ exists c, In c sample /\ ceq yh (snd c) = Ok true) \/
    (Forall (fun c => ceq yh (snd c) = Ok false) sample /\
     exists f l, sm_joint m x yh None = Ok f /\ sm_full_loss m y yh = Ok l /\
       s' = (if (o_cache prm <? length sample)%nat then tl sample else sample) ++ [(f, l, yh)]).
Proof. exact (fun X Y => @update_sample_spec X Y). Qed.
(** The constraint built from the cache uses a best cached result of every sample. *)
Theorem C27_cached_constraint :
  forall (X Y : Type) (prm : os_params) (m : smodel X Y) (n : nat) (gt : list Qc) (st : os_state Y) (c : list Qc * Qc),
    from_cache prm m n gt st = Ok (Some c) ->
    exists cache best acc,
      o_icache st = Some cache /\ Forall2 (best_cached (o_w st)) cache best /\ length acc = length gt /\
      (forall i, get1 acc i = lsum (map (fun e => get1 (fst (fst e)) i) best)) /\
      fst c = vscale (/ ofN n) (vsub gt acc) /\ snd c = lsum (map (fun e => snd (fst e)) best) / ofN n.
Proof. exact (fun X Y => @from_cache_best X Y). Qed.
(** inference_cache results is not the bound. *)
Theorem C27_bound_refuted :
  exists (prm : os_params) (sample : list (list Qc * Qc * nat)) (x : list Qc) (y yh : nat) (s' : list (list Qc * Qc * nat)),
    (0 < o_cache prm)%nat /\ (length sample <= o_cache prm)%nat /\
    update_sample (fun a b => Ok (a =? b)%nat) prm ex9_m sample x y yh = Ok s' /\ (o_cache prm < length s')%nat.
Proof.
  exists (ex10_prm 5 1), [([1; 0], 0, 0%nat)], [1], 0%nat, 1%nat, [([1; 0], 0, 0%nat); ([0; 1], 1, 1%nat)].
  split; [cbn; lia|]. split; [cbn; lia|]. split; [vm_compute; reflexivity|cbn; lia].
Qed.
(** Relaxed results: comparing with a cached result that has the same node marginals fails. *)
Theorem C27_relaxed_results_fail :
  forall (X : Type) (mixed : yval -> yval -> res bool) (prm : os_params) (m : smodel X yval)
         (sample : list (list Qc * Qc * yval)) (x : X) (y : yval) (u pw : list (list Qc)),
    Forall (fun c => exists u' pw', snd c = YRel u' pw') sample ->
    (exists c pw', In c sample /\ snd c = YRel u pw') ->
    update_sample (constraint_equal mixed) prm m sample x y (YRel u pw) = Err TypeError.
Proof. exact (fun X => @relaxed_cache_fails X). Qed.
(** MultiClassClf with rescale_C: storing any new result fails. *)
Theorem C27_rescaled_weights_fail :
  forall (ceq : nat -> nat -> res bool) (prm : os_params) (m : mc_clf) (sample : list (list Qc * Qc * nat))
         (x : list Qc) (y yh : nat),
    mc_rescale m = true -> (yh < mc_states m)%nat -> length x = mc_features m ->
    Forall (fun c => ceq yh (snd c) = Ok false) sample ->
    update_sample ceq prm (mc_smodel m) sample x y yh = Err ValueError.
Proof. exact rescaled_cache_fails. Qed.

(** ** C49, OneSlackSSVM *)
Theorem C49_oneslack_fit_succeeds :
  forall (X Y : Type) (T : task X Y) (d : nat) (ceq : Y -> Y -> res bool) (solve : qp_solver) (prm : os_params)
         (Xs : list X) (Ys : list Y) (bm : bmodel X Y) (sw : option (bmodel X Y)) (Yh : list Y),
    (0 < length Xs)%nat -> 0 <= o_C prm -> o_neg prm = None -> o_break prm = false ->
    o_window prm = O \/ (0 <= o_threshold prm <= 1) -> qp_sound solve ->
    (forall (cs : list (list Qc * Qc)) reg p,
       one_slack_problem (o_C prm) None (length Xs) (map fst cs) (map snd cs) reg = Ok p -> solve p <> None) ->
    o_cache prm = O \/ (forall a b, exists r, ceq a b = Ok r) ->
    usable T d prm Xs Ys bm -> (forall b, sw = Some b -> usable T d prm Xs Ys b) ->
    (0 < o_max_iter prm)%nat -> o_tol prm <= 1 ->
    bm_laug bm Xs Ys (vzero d) = Ok Yh -> 0 < loss_sum T Ys Yh ->
    exists r, os_fit ceq solve prm bm sw Xs Ys Cold = Ok r.
Proof. exact (fun X Y => @fit1_total' X Y). Qed.
(** No constraint in the first round: the prediction at w = 0 is right, or tol is larger than
    1 + its mean loss. *)
Theorem C49_oneslack_no_constraint :
  forall (X Y : Type) (T : task X Y) (d : nat) (ceq : Y -> Y -> res bool) (solve : qp_solver) (prm : os_params)
         (Xs : list X) (Ys : list Y) (bm : bmodel X Y) (Yh : list Y),
    (0 < length Xs)%nat -> 0 <= o_C prm -> o_break prm = false ->
    o_window prm = O \/ (0 <= o_threshold prm <= 1) -> o_cache prm = O \/ (forall a b, exists r, ceq a b = Ok r) ->
    usable T d prm Xs Ys bm -> bm_laug bm Xs Ys (vzero d) = Ok Yh ->
    (loss_sum T Ys Yh = 0 /\ feat_sum T d Xs Yh = feat_sum T d Xs Ys) \/
      1 + loss_sum T Ys Yh / ofN (length Xs) < o_tol prm ->
    os_fit ceq solve prm bm None Xs Ys Cold = Err UnboundLocalError.
Proof. exact (fun X Y => @fit1_unbound' X Y). Qed.
Theorem C49_oneslack_max_iter_zero :
  forall (X Y : Type) (T : task X Y) (d : nat) (ceq : Y -> Y -> res bool) (solve : qp_solver) (prm : os_params)
         (Xs : list X) (Ys : list Y) (bm : bmodel X Y) (sw : option (bmodel X Y)),
    (0 < length Xs)%nat -> 0 <= o_C prm -> o_window prm = O \/ (0 <= o_threshold prm <= 1) ->
    o_cache prm = O \/ (forall a b, exists r, ceq a b = Ok r) ->
    usable T d prm Xs Ys bm -> o_max_iter prm = O ->
    os_fit ceq solve prm bm sw Xs Ys Cold = Err UnboundLocalError.
Proof. exact (fun X Y => @fit1_max_iter_zero' X Y). Qed.

(** ** C50 *)
(** The sizes of constraints_ and alphas at every point of an iteration. *)
Theorem C50_interruption_points :
  forall (A : Type) (prm : os_params) (c : A) (a : list Qc) (cs : list A) (alphas : list (list Qc)),
    length cs = length alphas ->
    forall pt c' al', In (pt, (c', al')) (os_points prm c a cs alphas) ->
      match pt with
      | PSolving => length c' = S (length al')
      | PDelCon => S (length c') = length al'
      | _ => length c' = length al'
      end.
Proof. exact (fun A => @points_lengths A). Qed.
(** The last point is what the iteration of the learner ends with. *)
Theorem C50_points_follow_the_iteration :
  forall (A : Type) (prm : os_params) (c : A) (a : list Qc) (cs : list A) (alphas : list (list Qc))
         (cs' : list A) (al' : list (list Qc)),
    os_prune prm (cs ++ [c]) alphas a = Ok (cs', al') ->
    snd (last (os_points prm c a cs alphas) (PBefore, (cs, alphas))) = (cs', al').
Proof. exact (fun A => @points_last A). Qed.
(** A fit interrupted outside the two windows leaves attributes from which one can resume ... *)
Theorem C50_interrupted_outside :
  forall (X Y : Type) (T : task X Y) (d : nat) (prm : os_params) (Xs : list X) (Ys : list Y)
         (before : os_attrs Y) (cs : list (list Qc * Qc)) (c : list Qc * Qc) (a : list Qc) pt c' al',
    o_window prm = O \/ (0 <= o_threshold prm <= 1) ->
    resumable T d Xs Ys before -> oa_cons before = Some cs -> (exists Yh, mean_con T d Xs Ys Yh c) ->
    length a = S (length cs) -> Forall (fun v => 0 <= v) a ->
    In (pt, (c', al')) (os_points prm c a cs (oa_alphas before)) -> pt <> PSolving -> pt <> PDelCon ->
    resumable T d Xs Ys (OSAttrs (oa_w before) (Some c') al' (oa_icache before) (oa_curve before)
                           (oa_primal before) (oa_cached before)).
Proof. exact (fun X Y => @interrupted_resumable X Y). Qed.
(** ... and then a warm start ends normally in a state of the same kind, or finds no constraint
    at all and reads an unassigned variable. *)
Theorem C50_resumes :
  forall (X Y : Type) (T : task X Y) (d : nat) (ceq : Y -> Y -> res bool) (solve : qp_solver) (prm : os_params)
         (Xs : list X) (Ys : list Y) (bm : bmodel X Y) (sw : option (bmodel X Y)) (a : os_attrs Y),
    (0 < length Xs)%nat -> o_neg prm = None -> o_break prm = false ->
    o_window prm = O \/ (0 <= o_threshold prm <= 1) -> qp_sound solve ->
    (forall (cs : list (list Qc * Qc)) reg p,
       one_slack_problem (o_C prm) None (length Xs) (map fst cs) (map snd cs) reg = Ok p -> solve p <> None) ->
    o_cache prm = O \/ (forall a b, exists r, ceq a b = Ok r) ->
    usable T d prm Xs Ys bm -> (forall b, sw = Some b -> usable T d prm Xs Ys b) -> resumable T d Xs Ys a ->
    os_fit ceq solve prm bm sw Xs Ys (Warm a) = Err UnboundLocalError \/
    exists st reason, os_fit ceq solve prm bm sw Xs Ys (Warm a) = Ok (st, reason) /\
                      resumable T d Xs Ys (attrs_of st).
Proof. exact (fun X Y => @fit_resumes' X Y). Qed.
Theorem C50_finished_fit_resumable :
  forall (X Y : Type) (T : task X Y) (d : nat) (ceq : Y -> Y -> res bool) (solve : qp_solver) (prm : os_params)
         (Xs : list X) (Ys : list Y) (bm : bmodel X Y) (sw : option (bmodel X Y)) st reason,
    (0 < length Xs)%nat -> 0 <= o_C prm -> o_neg prm = None -> o_break prm = false ->
    o_window prm = O \/ (0 <= o_threshold prm <= 1) -> qp_sound solve ->
    (forall (cs : list (list Qc * Qc)) reg p,
       one_slack_problem (o_C prm) None (length Xs) (map fst cs) (map snd cs) reg = Ok p -> solve p <> None) ->
    o_cache prm = O \/ (forall a b, exists r, ceq a b = Ok r) ->
    usable T d prm Xs Ys bm -> (forall b, sw = Some b -> usable T d prm Xs Ys b) ->
    os_fit ceq solve prm bm sw Xs Ys Cold = Ok (st, reason) -> resumable T d Xs Ys (attrs_of st).
Proof. exact (fun X Y => @fit_cold_resumable' X Y). Qed.
(** Inside the windows no warm start succeeds; it fails the assertion of prune_constraints as
    soon as it finds a constraint and the QP has a solution. *)
Theorem C50_interrupted_inside :
  forall (X Y : Type) (ceq : Y -> Y -> res bool) (solve : qp_solver) (prm : os_params) (Xs : list X) (Ys : list Y)
         (bm : bmodel X Y) (sw : option (bmodel X Y)) (a : os_attrs Y) (cs : list (list Qc * Qc)),
    oa_cons a = Some cs -> length cs <> length (oa_alphas a) ->
    forall r, os_fit ceq solve prm bm sw Xs Ys (Warm a) <> Ok r.
Proof. exact (fun X Y => @fit_misaligned X Y). Qed.
Theorem C50_interrupted_inside_assertion :
  forall (X Y : Type) (ceq : Y -> Y -> res bool) (solve : qp_solver) (prm : os_params) (Xs : list X) (Ys : list Y)
         (bm : bmodel X Y) (sw : option (bmodel X Y)) (a : os_attrs Y) (cs : list (list Qc * Qc)) (gt : list Qc)
         (Yh : list Y) (c : list Qc * Qc) (cache : option (list (list (list Qc * Qc * Y)))) (r : list Qc * Qc),
    oa_cons a = Some cs -> length cs <> length (oa_alphas a) -> (0 < o_max_iter prm)%nat ->
    bm_joint bm Xs Ys (if sm_rescale (bm_s bm) then Some Ys else None) = Ok gt -> oa_icache a = None ->
    find_new prm bm Xs Ys gt (oa_w a) (- (1)) cs = Ok (Some (Yh, c)) -> length (oa_w a) = length (fst c) ->
    update_cache ceq prm (bm_s bm) None Xs Ys Yh = Ok cache ->
    run_qp solve (one_slack_problem (o_C prm) (o_neg prm) (length Xs) (map fst (cs ++ [c])) (map snd (cs ++ [c]))) = Ok r ->
    os_fit ceq solve prm bm sw Xs Ys (Warm a) = Err AssertionError.
Proof. exact (fun X Y => @fit_assertion X Y). Qed.
(** Interrupted before the end of its first iteration ever, the learner has no constraints_. *)
Theorem C50_never_fitted :
  forall (X Y : Type) (ceq : Y -> Y -> res bool) (solve : qp_solver) (prm : os_params) (Xs : list X) (Ys : list Y)
         (bm : bmodel X Y) (sw : option (bmodel X Y)) (a : os_attrs Y),
    oa_cons a = None -> os_fit ceq solve prm bm sw Xs Ys (Warm a) = Err AttributeError.
Proof. exact (fun X Y => @fit_no_attribute X Y). Qed.

(** ** The hypotheses are met *)
Example C24_hypotheses_met :
  qp_exact ex10_solver /\ qp_sound ex10_solver /\ 0 <= o_C (ex10_prm 5 2) /\ 0 <= o_tol (ex10_prm 5 2) /\
  batch_exact ex10_bm ex9_task 2 ex9_X ex9_Y /\ usable ex9_task 2 (ex10_prm 5 2) ex9_X ex9_Y ex10_bm.
Proof. exact (ex10_ok 5 2). Qed.
Example C24_fit_computed :
  match os_fit (fun a b => Ok (a =? b)%nat) ex10_solver (ex10_prm 5 2) ex10_bm None ex9_X ex9_Y Cold with
  | Ok (st, OSNoConstraint) =>
      map this (o_w st) = [1#2; (-1)#2]%Q /\ map this (o_curve st) = [1#4; 1#4]%Q /\
      length (o_cons st) = 2%nat /\ this (last (o_primal st) 0) = (1#4)%Q
  | _ => False
  end.
Proof. vm_compute. auto. Qed.
Example C49_solver_met :
  qp_sound first_solver /\
  forall C n (cs : list (list Qc * Qc)) reg p, 0 <= C ->
    one_slack_problem C None n (map fst cs) (map snd cs) reg = Ok p -> first_solver p <> None.
Proof. exact (conj first_solver_sound first_solver_total). Qed.
Example C49_max_iter_zero_computed :
  os_fit (fun a b => Ok (a =? b)%nat) ex10_solver (ex10_prm 0 0) ex10_bm None ex9_X ex9_Y Cold = Err UnboundLocalError.
Proof. vm_compute. reflexivity. Qed.
(** Resuming the converged learner of the example: its next constraint is an old one. *)
Example C50_converged_warm_start :
  match os_fit (fun a b => Ok (a =? b)%nat) ex10_solver (ex10_prm 5 0) ex10_bm None ex9_X ex9_Y Cold with
  | Ok (st, _) =>
      os_fit (fun a b => Ok (a =? b)%nat) ex10_solver (ex10_prm 5 0) ex10_bm None ex9_X ex9_Y (Warm (attrs_of st))
      = Err UnboundLocalError
  | Err _ => False
  end.
Proof. vm_compute. reflexivity. Qed.
Example C50_points_computed :
  map fst (os_points (OSParams 1 5 0 true false None 0 (1 / (1 + 1)) 1 TolAuto) 1%nat [0; 1] [0%nat] [[0]])
  = [PBefore; PSolving; PSlot; PRecorded; PDelCon; PDelBoth].
Proof. vm_compute. reflexivity. Qed.

Print Assumptions C24_dual_point.
Print Assumptions C24_dual_optimum.
Print Assumptions C24_dual_optimum_regularised.
Print Assumptions C24_fit_lower_bound.
Print Assumptions C24_fit_near_optimal.
Print Assumptions C24_without_initial_constraint_refuted.
Print Assumptions C24_multiclass_batch.
Print Assumptions C25_round.
Print Assumptions C25_no_window.
Print Assumptions C25_strongest_stays.
Print Assumptions C25_misaligned_fails.
Print Assumptions C25_fit_aligned.
Print Assumptions C25_initial_constraint_stays_refuted.
Print Assumptions C27_cache_invariant.
Print Assumptions C27_update.
Print Assumptions C27_cached_constraint.
Print Assumptions C27_bound_refuted.
Print Assumptions C27_relaxed_results_fail.
Print Assumptions C27_rescaled_weights_fail.
Print Assumptions C49_oneslack_fit_succeeds.
Print Assumptions C49_oneslack_no_constraint.
Print Assumptions C49_oneslack_max_iter_zero.
Print Assumptions C50_interruption_points.
Print Assumptions C50_points_follow_the_iteration.
Print Assumptions C50_interrupted_outside.
Print Assumptions C50_resumes.
Print Assumptions C50_finished_fit_resumable.
Print Assumptions C50_interrupted_inside.
Print Assumptions C50_interrupted_inside_assertion.
Print Assumptions C50_never_fitted.
Print Assumptions C24_round_record.

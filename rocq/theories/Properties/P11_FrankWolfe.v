(** Properties of FrankWolfeSSVM (learners/frankwolfe_ssvm.py): C28, C29, C30 (first part), C31, C54. *)
From Coq Require Import ZArith.
From Verif Require Import Model.FrankWolfe Model.BatchInstances Spec.TaskInstances Proofs.NSlackExamples Proofs.OneSlackExamples Proofs.FrankWolfeProofs2 Proofs.FrankWolfeProofs3 Proofs.FrankWolfeProofs4 Spec.FrankWolfeSpec.

(** * C28: dual feasibility for every schedule *)
Theorem C28_invariant : forall {X Y} (T : task X Y) d prm (m : smodel X Y) Xs Ys tr,
  length Xs = length Ys -> (0 < length Xs)%nat -> oracle_ok m T d (combine Xs Ys) ->
  fw_trace prm m Xs Ys (fw_bc_start d (length Xs) (vzero d) 0) tr ->
  Forall (fun st => length (fs_wmat st) = length Xs /\ length (fs_lmat st) = length Xs /\
    Forall2 (block_point T d (fw_C prm) (length Xs)) (combine Xs Ys) (combine (fs_wmat st) (fs_lmat st)) /\
    fs_w st = vsum d (fs_wmat st) /\ fs_l st = lsum (fs_lmat st) /\
    dual_feasible T d (fw_C prm) (combine Xs Ys) (fs_w st) (fs_l st) /\
    dual_feasible T d (fw_C prm) (combine Xs Ys) (fs_self_w st) (fs_self_l st)) tr.
Proof. intros X Y. exact fw_trace_inv. Qed.
Theorem C28_weak_duality : forall {X Y} (T : task X Y) d C Xs Ys (m : smodel X Y) w l w' hs,
  length Xs = length Ys -> (0 < length Xs)%nat -> oracle_ok m T d (combine Xs Ys) -> 0 <= C ->
  dual_feasible T d C (combine Xs Ys) w l -> length w' = d -> hinges T w' (combine Xs Ys) hs ->
  dual_objective C (length Xs) w l <= primal_value C w' hs.
Proof. intros X Y. exact fw_weak'. Qed.
(** Every entry of objective_curve_ bounds the optimum from below; with line search the curve
    does not fall (C29). *)
Theorem C28_fit : forall {X Y} (T : task X Y) d prm Xs Ys (bm : bmodel X Y),
  (0 < length Xs)%nat -> 0 <= fw_C prm -> fw_usable T d Xs Ys bm ->
  forall sched w l primal curve, fw_fit prm bm Xs Ys sched None = Ok (w, l, primal, curve) ->
  Forall (fun o => forall w' hs, length w' = d -> hinges T w' (combine Xs Ys) hs -> o <= primal_value (fw_C prm) w' hs) curve /\
  (fw_batch prm = false -> dual_feasible T d (fw_C prm) (combine Xs Ys) w l) /\
  (fw_batch prm = true -> exists l', dual_feasible T d (fw_C prm) (combine Xs Ys) w l') /\
  (fw_line prm = true -> fw_batch prm = true \/ fw_avg prm = false -> ascending curve).
Proof. intros X Y. exact fw_fit_bounds. Qed.
Theorem C28_fit_succeeds : forall {X Y} (T : task X Y) d prm Xs Ys (bm : bmodel X Y),
  (0 < length Xs)%nat -> 0 <= fw_C prm -> fw_usable T d Xs Ys bm ->
  forall sched, (0 < fw_max_iter prm)%nat ->
  (if fw_batch prm then fw_C prm <> 0
   else (0 < fw_check prm)%nat /\ forall it, Forall (fun i => (i < length Xs)%nat) (sched it)) ->
  exists r, fw_fit prm bm Xs Ys sched None = Ok r.
Proof. intros X Y. exact fw_fit_total. Qed.
(** A second fit of the same learner keeps w but not the blocks: its reported dual values bound
    nothing. *)
Theorem C28_refit_bound_refuted :
  exists w l p c w2 l2 p2 c2 v w' hs,
    fw_fit (ex11_prm false false) ex10_bm ex9_X ex9_Y ex11_sched None = Ok (w, l, p, c) /\
    fw_fit (ex11_prm false false) ex10_bm ex9_X [1%nat] ex11_sched (Some (w, l)) = Ok (w2, l2, p2, c2) /\
    In v c2 /\ hinges ex9_task w' (combine ex9_X [1%nat]) hs /\ length w' = 2%nat /\ primal_value 1 w' hs < v.
Proof. exact fw_refit_bound_refuted. Qed.
(** Models that can be trained. *)
Theorem C28_multiclass : forall m Xs Ys, mc_rescale m = false -> (0 < mc_states m)%nat -> length (mc_cw m) = mc_states m ->
  (mc_uniform m = true -> forall s, (s < mc_states m)%nat -> get1 (mc_cw m) s = 1) ->
  Forall (fun x => length x = mc_features m) Xs -> length Xs = length Ys -> Forall (fun y => (y < mc_states m)%nat) Ys ->
  fw_usable (mc_task (mc_states m) (mc_features m) (get1 (mc_cw m))) (mc_size m) Xs Ys (mc_bmodel m) /\
  batch_exact (mc_bmodel m) (mc_task (mc_states m) (mc_features m) (get1 (mc_cw m))) (mc_size m) Xs Ys.
Proof. exact mc_fw_usable. Qed.
Theorem C28_default_batch_methods : forall {X Y} (T : task X Y) d Xs Ys (m : smodel X Y),
  length Xs = length Ys -> sm_size m = d -> sm_rescale m = false -> oracle_ok m T d (combine Xs Ys) ->
  fw_usable T d Xs Ys (base_bmodel m).
Proof. intros X Y. exact base_fw_usable. Qed.

(** * C29: line search *)
(** for every state and every answer of loss-augmented inference *)
Theorem C29_block_update : forall {X Y} prm (m : smodel X Y) Xs Ys i st st',
  fw_line prm = true -> fw_step prm m Xs Ys i st = Ok st' ->
  dual_objective (fw_C prm) (length Xs) (fs_w st) (fs_l st) <= dual_objective (fw_C prm) (length Xs) (fs_w st') (fs_l st').
Proof. intros X Y. exact step_monotone. Qed.
(** no step size in [0, 1] gains more than eps / 2 over the one taken *)
Theorem C29_block_update_best : forall {X Y} prm (m : smodel X Y) Xs Ys i st st',
  fw_line prm = true -> fw_step prm m Xs Ys i st = Ok st' ->
  exists x y yh delta s loss wi li, nth_error Xs i = Some x /\ nth_error Ys i = Some y /\
    find_constraint m x y (fs_w st) None true = Ok (yh, delta, s, loss) /\
    nth_error (fs_wmat st) i = Some wi /\ nth_error (fs_lmat st) i = Some li /\
    forall g, 0 <= g -> g <= 1 ->
      dual_objective (fw_C prm) (length Xs) (vadd (vsub (fs_w st) wi) (vmix g wi (vscale (fw_C prm) delta)))
        (fs_l st - li + FrankWolfe.mix g li (loss / ofN (length Xs))) <=
      dual_objective (fw_C prm) (length Xs) (fs_w st') (fs_l st') + fw_eps / (1 + 1).
Proof. intros X Y. exact step_best. Qed.
Theorem C29_batch_update : forall {X Y} (T : task X Y) d prm Xs Ys (bm : bmodel X Y) it st st' gap,
  (0 < length Xs)%nat -> 0 < fw_C prm -> fw_usable T d Xs Ys bm -> fw_line prm = true ->
  length (fb_w st) = d -> fw_batch_step prm bm Xs Ys (feat_sum T d Xs Ys) it st = Ok (st', gap) ->
  dual_objective (fw_C prm) (length Xs) (fb_w st) (fb_l st) <= dual_objective (fw_C prm) (length Xs) (fb_w st') (fb_l st').
Proof. intros X Y. exact fw_batch_monotone. Qed.

(** * C30: averaging *)
(** whatever w and l were before the first update *)
Theorem C30_frank_wolfe_mean : forall {X Y} prm (m : smodel X Y) Xs Ys st tr,
  fw_avg prm = true -> length (fs_self_w st) = length (fs_w st) -> fs_k st = O -> tr <> [] ->
  fw_trace prm m Xs Ys st tr -> let fin := last tr st in
  length (fs_self_w fin) = length (fs_w st) /\
  (forall i, get1 (fs_self_w fin) i = linear_mean (map (fun s => get1 (fs_w s) i) tr)) /\
  fs_self_l fin = linear_mean (map fs_l tr).
Proof. intros X Y. exact fw_averages. Qed.

(** * C31: the duality gap report *)
Theorem C31_gap_report : forall {X Y} (T : task X Y) d C Xs Ys (bm : bmodel X Y) w l,
  (0 < length Xs)%nat -> fw_usable T d Xs Ys bm -> batch_exact bm T d Xs Ys -> length w = d ->
  exists hs, hinges T w (combine Xs Ys) hs /\
    objective_primal (bm_s bm) w Xs Ys C NSlack = Ok (primal_value C w hs) /\
    calc_dual_gap C bm Xs Ys w l =
      Ok (dual_objective C (length Xs) w l, primal_value C w hs - dual_objective C (length Xs) w l, primal_value C w hs) /\
    (0 <= C -> dual_feasible T d C (combine Xs Ys) w l -> 0 <= primal_value C w hs - dual_objective C (length Xs) w l).
Proof. intros X Y. exact fw_gap_report. Qed.
(** When the last reported gap is below tol, the returned weights are within tol of the optimum. *)
Theorem C31_certificate : forall {X Y} (T : task X Y) d prm Xs Ys (bm : bmodel X Y),
  (0 < length Xs)%nat -> 0 <= fw_C prm -> fw_usable T d Xs Ys bm ->
  forall sched w l p P o c D, batch_exact bm T d Xs Ys -> fw_batch prm = false ->
  fw_fit prm bm Xs Ys sched None = Ok (w, l, p ++ [P; o], c ++ [D; D]) -> P - D < fw_tol prm ->
  o = P /\ D = dual_objective (fw_C prm) (length Xs) w l /\
  exists hs, hinges T w (combine Xs Ys) hs /\ P = primal_value (fw_C prm) w hs /\
    forall w' hs', length w' = d -> hinges T w' (combine Xs Ys) hs' -> P <= primal_value (fw_C prm) w' hs' + fw_tol prm.
Proof. intros X Y. exact fw_fit_certificate. Qed.

(** * C54: configurations that cannot be trained *)
Theorem C54_max_iter_zero : forall {X Y} (T : task X Y) d prm Xs Ys (bm : bmodel X Y),
  (0 < length Xs)%nat -> fw_usable T d Xs Ys bm -> forall sched old, fw_max_iter prm = O ->
  (forall w l, old = Some (w, l) -> length w = d) -> fw_fit prm bm Xs Ys sched old = Err IndexError.
Proof. intros X Y. exact fw_no_iterations. Qed.
Theorem C54_gap_never_checked : forall {X Y} (T : task X Y) d prm Xs Ys (bm : bmodel X Y),
  (0 < length Xs)%nat -> fw_usable T d Xs Ys bm -> forall sched, fw_batch prm = false -> fw_check prm = O ->
  (0 < fw_max_iter prm)%nat -> Forall (fun i => (i < length Xs)%nat) (sched O) ->
  fw_fit prm bm Xs Ys sched None = Err UnboundLocalError.
Proof. intros X Y. exact fw_never_checked. Qed.
Theorem C54_batch_C_zero : forall {X Y} (T : task X Y) d prm Xs Ys (bm : bmodel X Y),
  (0 < length Xs)%nat -> fw_usable T d Xs Ys bm -> forall sched, fw_batch prm = true -> fw_C prm = 0 ->
  (0 < fw_max_iter prm)%nat -> fw_fit prm bm Xs Ys sched None = Err ZeroDivisionError.
Proof. intros X Y. exact fw_batch_C0. Qed.
Theorem C54_binary_never : forall prm F Xs Ys sched old r, fw_fit prm (bc_bmodel F) Xs Ys sched old = Ok r -> False.
Proof. exact fw_binary. Qed.
Theorem C54_binary_batch_error : forall prm F Xs Ys sched old, fw_batch prm = true ->
  fw_fit prm (bc_bmodel F) Xs Ys sched old = Err TypeError.
Proof. exact fw_binary_batch. Qed.
Theorem C54_rescaled_multiclass_never : forall prm m Xs Ys sched old r, mc_rescale m = true ->
  fw_fit prm (mc_bmodel m) Xs Ys sched old = Ok r -> False.
Proof. exact fw_multiclass_rescale. Qed.

(** * the hypotheses are met, and values *)
Example C28_hypotheses_met :
  fw_usable ex9_task 2 ex9_X ex9_Y ex10_bm /\ batch_exact ex10_bm ex9_task 2 ex9_X ex9_Y.
Proof.
  apply (mc_fw_usable ex9_clf).
  - reflexivity.
  - cbn. lia.
  - reflexivity.
  - intros _ [|[|s]] H; [reflexivity|reflexivity|]. cbn in H. exfalso. lia.
  - repeat constructor.
  - reflexivity.
  - repeat constructor.
Qed.
Example C28_fit_computed :
  match fw_fit (ex11_prm false true) ex10_bm ex9_X ex9_Y ex11_sched None,
        fw_fit (FWParams 1 3 0 false false 1 true) ex10_bm ex9_X ex9_Y ex11_sched None,
        fw_fit (FWParams 1 2 0 true false 1 true) ex10_bm ex9_X ex9_Y ex11_sched None with
  | Ok (w, l, p, c), Ok (w2, l2, p2, c2), Ok (w3, l3, p3, c3) =>
      length p = 2%nat /\ length c = 2%nat /\ this (get1 w 0) = (1000000000000000 # 2000000000000001)%Q /\
      map this w2 = [11 # 18; (-11) # 18]%Q /\ this l2 = (11 # 18)%Q /\ length c2 = 4%nat /\
      map this w3 = [1 # 3; (-1) # 3]%Q /\ map this c3 = [0; 0; 0]%Q /\ map this p3 = [1; 1; 4 # 9]%Q
  | _, _, _ => False
  end.
Proof. vm_compute. repeat split; reflexivity. Qed.
Example C29_step_computed :
  match fw_step (ex11_prm false false) (bm_s ex10_bm) ex9_X ex9_Y 0 (fw_bc_start 2 1 (vzero 2) 0) with
  | Ok st => this (fs_l st) = (1000000000000000 # 2000000000000001)%Q
  | Err _ => False
  end.
Proof. vm_compute. reflexivity. Qed.
Example C30_trace_met : exists tr, length tr = 2%nat /\
  fw_trace (FWParams 1 3 0 false false 1 true) (bm_s ex10_bm) ex9_X ex9_Y (fw_bc_start 2 1 [1; 1] 1) tr.
Proof.
  destruct (fw_step (FWParams 1 3 0 false false 1 true) (bm_s ex10_bm) ex9_X ex9_Y 0 (fw_bc_start 2 1 [1; 1] 1)) as [s|] eqn:E; [|vm_compute in E; discriminate E].
  destruct (fw_step (FWParams 1 3 0 false false 1 true) (bm_s ex10_bm) ex9_X ex9_Y 0 s) as [s2|] eqn:E2.
  - exists [s; s2]. split; [reflexivity|]. repeat split; eauto.
  - exfalso. vm_compute in E. injection E as <-. vm_compute in E2. discriminate E2.
Qed.
Example C30_mean_computed : this (linear_mean [1; 0; 1]) = (2 # 3)%Q.
Proof. vm_compute. reflexivity. Qed.
Example C54_never_checked_computed :
  fw_fit (FWParams 1 3 0 false true 0 false) ex10_bm ex9_X ex9_Y ex11_sched None = Err UnboundLocalError /\
  fw_fit (FWParams 1 0 0 false true 1 false) ex10_bm ex9_X ex9_Y ex11_sched None = Err IndexError /\
  fw_fit (FWParams 0 1 0 true true 1 false) ex10_bm ex9_X ex9_Y ex11_sched None = Err ZeroDivisionError /\
  fw_fit (FWParams 1 3 0 false true 1 false) (bc_bmodel 1) [[1]] [1%Z] ex11_sched None = Err TypeError /\
  fw_fit (FWParams 1 3 0 false true 1 false) (mc_bmodel (MC 2 1 [1; 1] true true)) ex9_X ex9_Y ex11_sched None = Err ValueError.
Proof. vm_compute. auto 10. Qed.

Print Assumptions C28_invariant.
Print Assumptions C28_weak_duality.
Print Assumptions C28_fit.
Print Assumptions C28_fit_succeeds.
Print Assumptions C28_refit_bound_refuted.
Print Assumptions C28_multiclass.
Print Assumptions C28_default_batch_methods.
Print Assumptions C29_block_update.
Print Assumptions C29_block_update_best.
Print Assumptions C29_batch_update.
Print Assumptions C30_frank_wolfe_mean.
Print Assumptions C31_gap_report.
Print Assumptions C31_certificate.
Print Assumptions C54_max_iter_zero.
Print Assumptions C54_gap_never_checked.
Print Assumptions C54_batch_C_zero.
Print Assumptions C54_binary_never.
Print Assumptions C54_binary_batch_error.
Print Assumptions C54_rescaled_multiclass_never.

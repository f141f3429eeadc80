(** C84. What an interrupted fit leaves behind. *)
From Coq Require Import ZArith.
From Verif Require Import Model.Interrupt Spec.InterruptSpec Spec.FrankWolfeSpec Proofs.NSlackExamples Proofs.Interrupt2 Proofs.Interrupt3 Proofs.Interrupt4
  Model.InterruptFW Proofs.InterruptFW Proofs.OneSlackExamples Proofs.FrankWolfeProofs4.

(** ** NSlackSSVM *)
(** [steady] is what a fit starts with and what every batch preserves. *)
Theorem C84_ns_start : forall (X Y : Type) (T : task X Y) (d : nat) (prm : ns_params) (Xs : list X) (Ys : list Y),
  length Xs = length Ys -> forall w, length w = d ->
  steady T d prm (combine Xs Ys) (NSState w (repeat [] (length Xs)) (repeat [] (length Xs)) None).
Proof. exact (fun X Y => @steady_start X Y). Qed.
Theorem C84_ns_batch : forall (X Y : Type) (T : task X Y) (d : nat) (yeq : Y -> Y -> bool) (solve : qp_solver) (prm : ns_params)
    (Xs : list X) (Ys : list Y), 0 <= ns_C prm -> qp_sound solve ->
  forall (m : smodel X Y) b st sl st' new sl', oracle_ok m T d (combine Xs Ys) -> steady T d prm (combine Xs Ys) st ->
  ns_batch_step yeq solve prm m (combine Xs Ys) (length Xs) b st sl = Ok (st', new, sl') -> steady T d prm (combine Xs Ys) st'.
Proof. exact (fun X Y => @steady_step X Y). Qed.
(** Wherever a batch is interrupted, the weights have their length, the constraints are true ones, and unless two or more
    deletions were pending there is a counter for every constraint of a sample, or for all but one. *)
Theorem C84_ns_points : forall (X Y : Type) (T : task X Y) (d : nat) (yeq : Y -> Y -> bool) (solve : qp_solver) (prm : ns_params)
    (Xs : list X) (Ys : list Y), 0 <= ns_C prm -> qp_sound solve ->
  forall (m : smodel X Y) b st k w cs ac, oracle_ok m T d (combine Xs Ys) -> steady T d prm (combine Xs Ys) st ->
  In (k, (w, cs, ac)) (ns_points yeq solve prm m (combine Xs Ys) (length Xs) b st) ->
  length w = d /\ true_cons T (combine Xs Ys) cs /\ (ns_window prm <> 0%nat -> (k <= 1)%nat -> counted cs ac).
Proof. exact (fun X Y => @ns_points_ok X Y). Qed.
(** The first point is the state before the batch, the last one the state after it. *)
Theorem C84_ns_first : forall (X Y : Type) (yeq : Y -> Y -> bool) (solve : qp_solver) (prm : ns_params) (m : smodel X Y) S n b st,
  hd_error (ns_points yeq solve prm m S n b st) = Some (0%nat, (st_w st, st_cons st, st_active st)).
Proof. reflexivity. Qed.
Theorem C84_ns_last : forall (X Y : Type) (yeq : Y -> Y -> bool) (solve : qp_solver) (prm : ns_params) (Xs : list X) (Ys : list Y)
    (m : smodel X Y) b st sl st' new sl',
  ns_batch_step yeq solve prm m (combine Xs Ys) (length Xs) b st sl = Ok (st', new, sl') ->
  last (ns_points yeq solve prm m (combine Xs Ys) (length Xs) b st) (0%nat, (st_w st, st_cons st, st_active st)) =
  (0%nat, (st_w st', st_cons st', st_active st')).
Proof. exact (fun X Y => @points_end X Y). Qed.
(** Calling fit again with the constraints left behind runs to its end ... *)
Theorem C84_ns_resume : forall (X Y : Type) (T : task X Y) (d : nat) (yeq : Y -> Y -> bool) (solve : qp_solver) (prm : ns_params)
    (Xs : list X) (Ys : list Y), 0 <= ns_C prm -> length Xs = length Ys -> qp_sound solve -> ns_neg prm = None ->
  (forall n psis losses sizes reg p, n_slack_problem (ns_C prm) None n psis losses sizes reg = Ok p -> solve p <> None) ->
  forall (m : smodel X Y) sw b bs st k w cs ac curve primal,
  oracle_ok m T d (combine Xs Ys) -> (forall m', sw = Some m' -> oracle_ok m' T d (combine Xs Ys)) ->
  ns_break prm = false -> (0 < length Xs)%nat -> (0 < ns_max_iter prm)%nat -> batch_slices (ns_batch prm) (length Xs) = Ok bs ->
  steady T d prm (combine Xs Ys) st -> In (k, (w, cs, ac)) (ns_points yeq solve prm m (combine Xs Ys) (length Xs) b st) ->
  (k <= 1)%nat -> concat cs <> [] ->
  exists r, ns_fit yeq solve prm m sw Xs Ys (Some cs) (Some (NSAttrs ac curve primal)) = Ok r.
Proof. exact (fun X Y => @ns_point_resumes X Y). Qed.
(** ... and is as good as an uninterrupted one if it stops because no constraint is new. *)
Theorem C84_ns_resume_near : forall (X Y : Type) (T : task X Y) (d : nat) (yeq : Y -> Y -> bool) (solve : qp_solver) (prm : ns_params)
    (Xs : list X) (Ys : list Y), 0 <= ns_C prm -> length Xs = length Ys -> ns_neg prm = None ->
  forall (m : smodel X Y) sw cs ac curve primal st curve' primal',
  oracle_exact m T d (combine Xs Ys) -> (forall m', sw = Some m' -> oracle_exact m' T d (combine Xs Ys)) ->
  qp_exact solve -> sm_size m = d -> yeq_ok T yeq (combine Xs Ys) -> zero_loss_same T (combine Xs Ys) -> true_cons T (combine Xs Ys) cs ->
  ns_fit yeq solve prm m sw Xs Ys (Some cs) (Some (NSAttrs ac curve primal)) = Ok (st, curve', primal', NoNewConstraint) ->
  forall hs w' hs', hinges T (st_w st) (combine Xs Ys) hs -> length w' = d -> hinges T w' (combine Xs Ys) hs' ->
  primal_value (ns_C prm) (st_w st) hs <= primal_value (ns_C prm) w' hs' +
     ns_C prm * (ofN (length Xs) * small) + qp_reg * (ofN (length Xs) * (ns_C prm * ns_C prm)).
Proof. exact (fun X Y => @resume_near X Y). Qed.
(** But the counters of all removed constraints are dropped before the constraints: interrupted with two deletions of a sample
    still to do, the fit cannot be resumed ... *)
Theorem C84_ns_resume_refuted : forall (X Y : Type) (T : task X Y) (d : nat) (yeq : Y -> Y -> bool) (solve : qp_solver) (prm : ns_params)
    (Xs : list X) (Ys : list Y), 0 <= ns_C prm -> length Xs = length Ys -> qp_sound solve -> ns_neg prm = None ->
  (forall n psis losses sizes reg p, n_slack_problem (ns_C prm) None n psis losses sizes reg = Ok p -> solve p <> None) ->
  forall (m : smodel X Y) sw b st k w cs ac curve primal, oracle_ok m T d (combine Xs Ys) ->
  steady T d prm (combine Xs Ys) st -> In (k, (w, cs, ac)) (ns_points yeq solve prm m (combine Xs Ys) (length Xs) b st) -> (2 <= k)%nat ->
  ns_fit yeq solve prm m sw Xs Ys (Some cs) (Some (NSAttrs ac curve primal)) = Err IndexError.
Proof. exact (fun X Y => @ns_point_lost X Y). Qed.
(** ... and neither can a fit interrupted before its first constraint. *)
Theorem C84_ns_resume_empty : forall (X Y : Type) (yeq : Y -> Y -> bool) (solve : qp_solver) (prm : ns_params) (Xs : list X) (Ys : list Y)
    (m : smodel X Y) sw cs ac curve primal, concat cs = [] ->
  ns_fit yeq solve prm m sw Xs Ys (Some cs) (Some (NSAttrs ac curve primal)) = Err ValueError.
Proof. exact (fun X Y => @resume_empty X Y). Qed.

(** ** FrankWolfeSSVM, block-coordinate mode *)
(** Wherever the update of a sample is interrupted, the weights belong to a point of the dual problem; self.l is its loss before
    and after the update. *)
Theorem C84_fw_points : forall (X Y : Type) (T : task X Y) (d : nat) (prm : fw_params) (m : smodel X Y) (Xs : list X) (Ys : list Y),
  length Xs = length Ys -> (0 < length Xs)%nat -> oracle_ok m T d (combine Xs Ys) ->
  forall tr i pt w l, fw_trace prm m Xs Ys (fw_bc_start d (length Xs) (vzero d) 0) tr -> (i < length Xs)%nat ->
  In (pt, (w, l)) (fw_points prm m Xs Ys i (last tr (fw_bc_start d (length Xs) (vzero d) 0))) ->
  (exists l', dual_feasible T d (fw_C prm) (combine Xs Ys) w l') /\
  (pt = FBefore \/ pt = FDone -> dual_feasible T d (fw_C prm) (combine Xs Ys) w l).
Proof. exact (fun X Y => @fw_points_feasible X Y). Qed.
(** Without averaging self.w is the working array: in the middle of the update the whole block of the sample is missing from it. *)
Theorem C84_fw_removed : forall (X Y : Type) (T : task X Y) (d : nat) (prm : fw_params) (m : smodel X Y) (Xs : list X) (Ys : list Y),
  length Xs = length Ys -> oracle_ok m T d (combine Xs Ys) ->
  forall tr i w l, fw_trace prm m Xs Ys (fw_bc_start d (length Xs) (vzero d) 0) tr -> (i < length Xs)%nat -> tr <> [] -> fw_avg prm = false ->
  In (FRemoved, (w, l)) (fw_points prm m Xs Ys i (last tr (fw_bc_start d (length Xs) (vzero d) 0))) ->
  exists wi li, let st := last tr (fw_bc_start d (length Xs) (vzero d) 0) in
    nth_error (fs_wmat st) i = Some wi /\ nth_error (fs_lmat st) i = Some li /\
    vadd w wi = fs_self_w st /\ l = fs_self_l st /\ dual_feasible T d (fw_C prm) (combine Xs Ys) w (l - li).
Proof. intros X Y T d prm m Xs Ys HL HO tr i w l HT Hi. assert (HN : (0 < length Xs)%nat) by (revert Hi; apply Nat.le_lt_trans; apply Nat.le_0_l). exact (@fw_points_removed X Y T d prm m Xs Ys HL HN HO tr i w l HT Hi). Qed.
(** With averaging the weights only change by one assignment. *)
Theorem C84_fw_average : forall (X Y : Type) (prm : fw_params) (m : smodel X Y) (Xs : list X) (Ys : list Y) i st pt w l,
  fw_avg prm = true -> In (pt, (w, l)) (fw_points prm m Xs Ys i st) ->
  (w = fs_self_w st /\ l = fs_self_l st) \/
  exists st', fw_step prm m Xs Ys i st = Ok st' /\ w = fs_self_w st' /\ (l = fs_self_l st \/ l = fs_self_l st').
Proof. exact (fun X Y => @fw_points_average X Y). Qed.
Theorem C84_fw_last : forall (X Y : Type) (prm : fw_params) (m : smodel X Y) (Xs : list X) (Ys : list Y) i st st',
  fw_step prm m Xs Ys i st = Ok st' ->
  last (fw_points prm m Xs Ys i st) (FBefore, (fs_self_w st, fs_self_l st)) = (FDone, (fs_self_w st', fs_self_l st')).
Proof. exact (fun X Y => @fw_points_end X Y). Qed.
(** So the attributes of an interrupted fit need not bound the optimum from below, and all that was learned can be lost: *)
Theorem C84_fw_bound_refuted : exists tr w l w' hs,
  fw_trace ex45_fw ex9_m ex9_X ex9_Y (fw_bc_start 2 1 (vzero 2) 0) tr /\
  In (FRemoved, (w, l)) (fw_points ex45_fw ex9_m ex9_X ex9_Y 0 (last tr (fw_bc_start 2 1 (vzero 2) 0))) /\
  length w' = 2%nat /\ hinges ex9_task w' (combine ex9_X ex9_Y) hs /\
  primal_value (fw_C ex45_fw) w' hs < dual_objective (fw_C ex45_fw) 1 w l /\
  w <> fs_self_w (last tr (fw_bc_start 2 1 (vzero 2) 0)) /\ Forall (fun v => v = 0) w.
Proof. exact fw_bound_refuted. Qed.

(** ** FrankWolfeSSVM, batch mode *)
(** Wherever it is interrupted, the weights are those of a fit with fewer iterations, k; the curves are the ones of that fit,
    or, while an entry is being added, one entry longer (both, or only the primal one). *)
Theorem C84_fwb_points : forall (X Y : Type) prm (bm : bmodel X Y) Xs Ys gt n st0 pt w p c,
  In (pt, (w, p, c)) (fwb_loop_points prm bm Xs Ys gt n 0 st0) ->
  exists k st, (k <= n)%nat /\ fw_batch_loop prm bm Xs Ys gt k 0 st0 = Ok st /\ w = fb_w st /\
    match pt with
    | BBefore | BWeights => p = fb_primal st /\ c = fb_curve st
    | BPrimal => c = fb_curve st /\ (k < n)%nat /\ exists st', fw_batch_loop prm bm Xs Ys gt (S k) 0 st0 = Ok st' /\ p = fb_primal st'
    | BDual => (k < n)%nat /\ exists st', fw_batch_loop prm bm Xs Ys gt (S k) 0 st0 = Ok st' /\ p = fb_primal st' /\ c = fb_curve st'
    end.
Proof. exact (fun X Y prm bm Xs Ys gt n => @loop_points X Y prm bm Xs Ys gt n 0). Qed.
Theorem C84_fwb_last : forall (X Y : Type) prm (bm : bmodel X Y) Xs Ys gt n st0 st, (0 < n)%nat -> fw_batch_loop prm bm Xs Ys gt n 0 st0 = Ok st ->
  In (BWeights, (fb_w st, fb_primal st, fb_curve st)) (fwb_loop_points prm bm Xs Ys gt n 0 st0).
Proof. exact (fun X Y prm bm Xs Ys gt n => @loop_points_end X Y prm bm Xs Ys gt n 0). Qed.
(** In a first fit the weights are dual feasible and every dual value recorded is a lower bound, wherever it is interrupted.
    Then fit ends as usual if there is a dual value to repeat, and raises IndexError if not. *)
Theorem C84_fwb_bounds : forall (X Y : Type) (T : task X Y) d prm Xs Ys (bm : bmodel X Y) gt, (0 < length Xs)%nat -> 0 <= fw_C prm -> fw_C prm <> 0 ->
  fw_usable T d Xs Ys bm -> bm_joint bm Xs Ys (Some Ys) = Ok gt ->
  forall n pt w p c l, In (pt, (w, p, c)) (fwb_loop_points prm bm Xs Ys gt n 0 (FWBState (vzero d) 0 [] [])) ->
  (exists l', dual_feasible T d (fw_C prm) (combine Xs Ys) w l') /\
  Forall (fun o => forall w' hs, length w' = d -> hinges T w' (combine Xs Ys) hs -> o <= primal_value (fw_C prm) w' hs) c /\
  (c = [] -> fw_finish prm bm Xs Ys w l p c = Err IndexError) /\
  (c <> [] -> exists o, objective_primal (bm_s bm) w Xs Ys (fw_C prm) NSlack = Ok o /\ fw_finish prm bm Xs Ys w l p c = Ok (w, l, p ++ [o], c ++ [last c 0])).
Proof. exact (fun X Y => @fwb_bounds X Y). Qed.
(** [fw_finish] is how a fit that is not interrupted ends, too. *)
Theorem C84_fwb_fit : forall (X Y : Type) prm (bm : bmodel X Y) Xs Ys sched, fw_batch prm = true ->
  fw_fit prm bm Xs Ys sched None = (let! s := frank_wolfe_batch prm bm Xs Ys (vzero (sm_size (bm_s bm))) in fw_finish prm bm Xs Ys (fb_w s) 0 (fb_primal s) (fb_curve s)).
Proof. exact (fun X Y => @fit_finish X Y). Qed.

(** ** SubgradientSSVM *)
(** Wherever a step is interrupted, the weights are those before or after it; in the second case self.t is one behind unless
    the step is complete. *)
Theorem C84_sg_points : forall prm n lr dj first st pt w t, In (pt, (w, t)) (sg_points prm n lr dj first st) ->
  (w = sg_self st /\ t = sg_t st) \/
  exists st', solve_subgradient prm n lr dj st = Ok st' /\ w = sg_self st' /\ (t = sg_t st' /\ pt = SDone \/ S t = sg_t st' /\ pt <> SDone).
Proof. exact sg_points_shape. Qed.
Theorem C84_sg_last : forall prm n lr dj first st st', solve_subgradient prm n lr dj st = Ok st' ->
  last (sg_points prm n lr dj first st) (SBefore, (sg_self st, sg_t st)) = (SDone, (sg_self st', sg_t st')).
Proof. exact sg_points_end. Qed.

(** ** Examples *)
Example C84_ns_example_state : steady ex45_task 4 ex45_prm (combine ex9_X ex9_Y) ex45_st /\ oracle_exact ex45_m ex45_task 4 (combine ex9_X ex9_Y) /\
  qp_sound zero_solver /\ 0 <= ns_C ex45_prm /\ batch_slices (ns_batch ex45_prm) (length ex9_X) = Ok [(0, 1)%nat] /\
  (forall n psis losses sizes reg p, n_slack_problem (ns_C ex45_prm) None n psis losses sizes reg = Ok p -> zero_solver p <> None).
Proof.
  split; [exact ex45_steady|]. split; [exact ex45_oracle|]. split; [exact zero_solver_sound|]. split; [discriminate|]. split; [reflexivity|].
  intros n psis losses sizes reg p. apply zero_solver_total. discriminate.
Qed.
(** deletions to do, outputs of the constraints, counters *)
Example C84_ns_example_points :
  map (fun p => (fst p, map (fun c => map (fun u => fst (fst u)) c) (snd (fst (snd p))), snd (snd p)))
    (ns_points Nat.eqb zero_solver ex45_prm ex45_m (combine ex9_X ex9_Y) (length ex9_X) (0, 1)%nat ex45_st) =
  [(0, [[1; 2]], [[1; 1]]); (0, [[1; 2; 3]], [[1; 1]]); (0, [[1; 2; 3]], [[1; 1; 0]]); (0, [[1; 2; 3]], [[2; 2; 1]]);
   (2, [[1; 2; 3]], [[1]]); (1, [[1; 3]], [[1]]); (0, [[3]], [[1]]); (0, [[3]], [[1]])]%nat.
Proof. vm_compute. reflexivity. Qed.
Example C84_ns_example_lost : exists w cs ac, In (2%nat, (w, cs, ac)) ex45_points /\
  ns_fit Nat.eqb zero_solver ex45_prm ex45_m None ex9_X ex9_Y (Some cs) (Some (NSAttrs ac [] [])) = Err IndexError.
Proof. exact ex45_lost. Qed.
Example C84_fw_example : fw_trace ex45_fw ex9_m ex9_X ex9_Y ex45_start ex45_tr /\ ex45_tr <> [] /\ fw_avg ex45_fw = false /\
  oracle_exact ex9_m ex9_task 2 (combine ex9_X ex9_Y).
Proof. split; [apply ex45_trace|]. split; [apply ex45_trace|]. split; [reflexivity|]. apply ex9_ok. Qed.
Example C84_fw_example_points :
  map (fun p => (fst p, (map this (fst (snd p)), this (snd (snd p))))) ex45_fw_points =
  [(FBefore, ([1 # 3; - 1 # 3], 1 # 3)); (FRemoved, ([0 # 1; 0 # 1], 1 # 3)); (FAdded, ([2 # 3; - 2 # 3], 1 # 3));
   (FWeights, ([2 # 3; - 2 # 3], 1 # 3)); (FDone, ([2 # 3; - 2 # 3], 2 # 3))]%Q.
Proof. vm_compute. reflexivity. Qed.
(** two iterations without line search: weights, primal and dual curve; interrupted at the first two points, fit raises *)
Definition ex57_fw : fw_params := FWParams 1 2 (Q2Qc (1 # 1000)) true false 1 false.
Definition ex57_points := fwb_loop_points ex57_fw ex10_bm ex9_X ex9_Y (match bm_joint ex10_bm ex9_X ex9_Y (Some ex9_Y) with Ok g => g | Err _ => [] end) 2 0 (FWBState (vzero 2) 0 [] []).
Example C84_fwb_example : fw_usable ex9_task 2 ex9_X ex9_Y ex10_bm /\ fw_C ex57_fw <> 0 /\
  map (fun q => (fst q, (map this (fst (fst (snd q))), map this (snd (fst (snd q))), map this (snd (snd q))))) ex57_points =
  [(BBefore, ([0; 0], [], [])); (BPrimal, ([0; 0], [1], [])); (BDual, ([0; 0], [1], [0])); (BWeights, ([1; -1], [1], [0]));
   (BBefore, ([1; -1], [1], [0])); (BPrimal, ([1; -1], [1; 1], [0])); (BDual, ([1; -1], [1; 1], [0; 0])); (BWeights, ([1 # 3; -1 # 3], [1; 1], [0; 0]))]%Q /\
  map (fun q => match fw_finish ex57_fw ex10_bm ex9_X ex9_Y (fst (fst (snd q))) 0 (snd (fst (snd q))) (snd (snd q)) with
                | Ok (_, _, p, c) => Ok (map this p, map this c) | Err e => Err e end) ex57_points =
  [Err IndexError; Err IndexError; Ok ([1; 1], [0; 0]); Ok ([1; 1], [0; 0]); Ok ([1; 1], [0; 0]); Ok ([1; 1; 1], [0; 0]); Ok ([1; 1; 1], [0; 0; 0]);
   Ok ([1; 1; 4 # 9], [0; 0; 0])]%Q.
Proof.
  split; [|split; [discriminate|split; vm_compute; reflexivity]].
  apply (mc_fw_usable ex9_clf).
  - reflexivity.
  - cbn. lia.
  - reflexivity.
  - intros _ [|[|s]] H; [reflexivity|reflexivity|]. cbn in H. exfalso. lia.
  - repeat constructor.
  - reflexivity.
  - repeat constructor.
Qed.
Example C84_sg_example :
  map (fun p => (fst p, (map this (fst (snd p)), snd (snd p))))
    (sg_points (SGParams 1 10 0 (Some 1) 1 4 0 1 None AvgLinear false) 1 1 [1; - (1)] false (SGState [1; 1] [ofN 4; ofN 4] [0; 0] 2)) =
  [(SBefore, ([4 # 1; 4 # 1]%Q, 2%nat)); (SStepped, ([4 # 1; 4 # 1]%Q, 2%nat)); (SWeights, ([5 # 2; 3 # 2]%Q, 2%nat)); (SDone, ([5 # 2; 3 # 2]%Q, 3%nat))].
Proof. vm_compute. reflexivity. Qed.

Print Assumptions C84_ns_start.
Print Assumptions C84_ns_batch.
Print Assumptions C84_ns_points.
Print Assumptions C84_ns_first.
Print Assumptions C84_ns_last.
Print Assumptions C84_ns_resume.
Print Assumptions C84_ns_resume_near.
Print Assumptions C84_ns_resume_refuted.
Print Assumptions C84_ns_resume_empty.
Print Assumptions C84_fw_points.
Print Assumptions C84_fw_removed.
Print Assumptions C84_fw_average.
Print Assumptions C84_fw_last.
Print Assumptions C84_fw_bound_refuted.
Print Assumptions C84_sg_points.
Print Assumptions C84_sg_last.
Print Assumptions C84_fwb_points.
Print Assumptions C84_fwb_last.
Print Assumptions C84_fwb_bounds.
Print Assumptions C84_fwb_fit.

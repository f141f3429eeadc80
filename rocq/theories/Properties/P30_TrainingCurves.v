(** C69: the curves that training records and what plot_learning shows of them (plot_learning.py and the bookkeeping of
    n_slack_ssvm.py, one_slack_ssvm.py, frankwolfe_ssvm.py, subgradient_ssvm.py, subgradient_latent_ssvm.py, ssvm.py). *)
From Coq Require Import Sorted Lia.
From Verif Require Import Base.QcBase Base.Sums Model.NSlack Model.OneSlack Model.FrankWolfe Model.Subgradient Model.LatentLearner Model.SubgradientLatent
  Model.Curves Model.PlotLearning Spec.CurveSpec
  Proofs.CurveProofs2 Proofs.CurveProofs3 Proofs.CurveProofs4 Proofs.CurveProofs5 Proofs.CurveProofs6 Proofs.CurveProofs7 Proofs.CurveProofs8
  Proofs.CurveProofs9.

(** ** a fit that is not interrupted records aligned curves *)
Theorem C69_nslack : forall now lg every max sw warm its p k b r extra,
  b_cached b = None -> (warm <> None -> curves_aligned extra b) -> (warm = None -> extra = 0%nat) ->
  ns_curves now lg every max sw warm its p None k b = Ok r ->
  curves_aligned extra (r_book r) /\ exists o, b_obj (r_book r) = Some o /\ (2 <= length o)%nat.
Proof. exact ns_aligned. Qed.
Theorem C69_oneslack : forall now lg every max sw warm its p k b r extra,
  (warm = true -> curves_aligned extra b) -> (warm = false -> extra = 0%nat) ->
  os_curves now lg every max sw warm its p None k b = Ok r ->
  curves_aligned extra (r_book r) /\ exists o, b_obj (r_book r) = Some o /\ (2 <= length o)%nat.
Proof. exact os_aligned. Qed.
Theorem C69_frankwolfe : forall now lg batch check max its p k b r,
  b_cached b = None -> fw_curves now lg batch check max its p None k b = Ok r ->
  curves_aligned 0 (r_book r) /\ exists o, b_obj (r_book r) = Some o /\ (2 <= length o)%nat.
Proof. exact fw_aligned. Qed.
Theorem C69_subgradient : forall now lg every max warm its v k b r extra,
  b_cached b = None -> b_primal b = None -> (warm = true -> curves_aligned extra b) -> (warm = false -> extra = 0%nat) ->
  sg_curves now lg every max warm its v None k b = Ok r -> curves_aligned extra (r_book r).
Proof. exact sg_aligned. Qed.
Theorem C69_latent_subgradient : forall now lg every max warm its v k b r extra,
  b_cached b = None -> b_primal b = None -> (warm = true -> curves_aligned extra b) -> (warm = false -> extra = 0%nat) ->
  (forall i, si_break (its i) = false) ->
  lsg_curves now lg every max warm its v None k b = Ok r -> curves_aligned extra (r_book r).
Proof. exact lsg_aligned. Qed.

(** ** the plot of aligned curves *)
Theorem C69_plot : forall extra every b ts o,
  curves_aligned extra b -> b_times b = Some ts -> b_obj b = Some o -> (2 <= length o)%nat ->
  exists d, plot_learning true every b = Ok d /\ draws every b (minutes ts (length o)) d.
Proof. exact draws_time. Qed.
Theorem C69_plot_iterations : forall extra every b o,
  curves_aligned extra b -> b_obj b = Some o -> o <> [] ->
  exists d, plot_learning false every b = Ok d /\ draws every b (map ofN (seq 0 (length o))) d.
Proof. exact draws_iterations. Qed.
(** the x-coordinates are increasing: the curves are drawn from left to right *)
Theorem C69_plot_ordered : forall now k b ts n i j,
  stamps_ordered now k b -> b_times b = Some ts -> length ts = S n -> (2 <= n)%nat -> (i <= j < n)%nat ->
  0 <= nth i (minutes ts n) 0 <= nth j (minutes ts n) 0.
Proof. exact minutes_ordered. Qed.

(** ** the numbers are those of the learners *)
Theorem C69_model_nslack : forall (X Y : Type) (yeq : Y -> Y -> bool) (solve : qp_solver) (prm : ns_params) (m : smodel X Y) (sw : option (smodel X Y))
  (Xs : list X) (Ys : list Y) constraints old st curve primal reason (losses : nat -> Qc),
  ns_fit yeq solve prm m sw Xs Ys constraints old = Ok (st, curve, primal, reason) ->
  exists its warm p,
    (forall i, ni_loss (its i) = losses i) /\ (warm = None <-> constraints = None) /\
    forall now lg every k b,
      (constraints <> None -> exists a t0 ts, old = Some a /\ b_times b = Some (t0 :: ts) /\
         b_obj b = Some (at_curve a) /\ b_primal b = Some (at_primal a)) ->
      exists r,
        ns_curves now lg every (ns_max_iter prm) (match sw with Some _ => true | None => false end) warm its p None k b = Ok r /\
        b_obj (r_book r) = Some curve /\ b_primal (r_book r) = Some primal.
Proof. exact (fun X Y => @ns_link X Y). Qed.
Theorem C69_model_oneslack : forall (X Y : Type) (ceq : Y -> Y -> res bool) (solve : qp_solver) (prm : os_params) (bm : bmodel X Y)
  (sw : option (bmodel X Y)) (Xs : list X) (Ys : list Y) (ws : warm Y) st reason (losses : nat -> Qc),
  os_fit ceq solve prm bm sw Xs Ys ws = Ok (st, reason) ->
  exists its p,
    (forall i, its i = OINone \/ exists q c o, its i = OIFound (losses i) q c o) /\
    forall now lg every k b,
      (forall a, ws = Soft a \/ ws = Warm a -> exists t0 ts, b_times b = Some (t0 :: ts) /\
         b_obj b = Some (oa_curve a) /\ b_primal b = Some (oa_primal a) /\ b_cached b = Some (oa_cached a)) ->
      exists r,
        os_curves now lg every (o_max_iter prm) (match sw with Some _ => true | None => false end)
          (match ws with Cold => false | _ => true end) its p None k b = Ok r /\
        b_obj (r_book r) = Some (o_curve st) /\ b_primal (r_book r) = Some (o_primal st) /\ b_cached (r_book r) = Some (o_cached st).
Proof. exact (fun X Y => @os_link X Y). Qed.
Theorem C69_model_frankwolfe : forall (X Y : Type) (prm : fw_params) (bm : bmodel X Y) (Xs : list X) (Ys : list Y) sched old w l primal curve,
  fw_fit prm bm Xs Ys sched old = Ok (w, l, primal, curve) ->
  exists its p, forall now lg k b, exists r,
    fw_curves now lg (fw_batch prm) (fw_check prm) (fw_max_iter prm) its p None k b = Ok r /\
    b_obj (r_book r) = Some curve /\ b_primal (r_book r) = Some primal.
Proof. exact (fun X Y => @fw_link X Y). Qed.
Theorem C69_model_subgradient : forall (X Y : Type) (prm : sg_params) (bm : bmodel X Y) shuf warm (S : list (X * Y)) L L' (losses : nat -> Qc),
  sg_fit prm bm shuf warm S L = Ok L' ->
  exists its v w lr curve,
    (forall i, si_loss (its i) = losses i) /\ sl_fitted L' = Some (w, lr, curve) /\
    forall now lg every k b,
      (warm = true -> exists t0 ts w lr c, b_times b = Some (t0 :: ts) /\ sl_fitted L = Some (w, lr, c) /\ b_obj b = Some c) ->
      exists r, sg_curves now lg every (sg_max_iter prm) warm its v None k b = Ok r /\ b_obj (r_book r) = Some curve.
Proof. exact (fun X Y => @sg_link X Y). Qed.
Theorem C69_model_latent_subgradient : forall (X Y : Type) (prm : sg_params) (m : lmodel X Y) w0 warm (S : list (X * Y)) L L' (losses : nat -> Qc),
  lsg_fit prm m w0 warm S L = Ok L' ->
  exists its v w lr curve,
    (forall i, si_loss (its i) = losses i) /\ sl_fitted L' = Some (w, lr, curve) /\
    forall now lg every k b,
      (warm = true -> exists t0 ts w lr c, b_times b = Some (t0 :: ts) /\ sl_fitted L = Some (w, lr, c) /\ b_obj b = Some c) ->
      exists r, lsg_curves now lg every (sg_max_iter prm) warm its v None k b = Ok r /\ b_obj (r_book r) = Some curve.
Proof. exact (fun X Y => @lsg_link X Y). Qed.

(** ** the logger: called in order, at the end with 'final' after everything was recorded; at every call before that the curves
    agree.  Also after an interrupt anywhere. *)
Theorem C69_logger_nslack : forall now every max sw warm its p cut k b r,
  ns_curves now true every max sw warm its p cut k b = Ok r ->
  logged_in_order max r /\ (warm = None -> b_cached b = None -> logs_agree r).
Proof.
  intros now every max sw warm its p cut k b r H. split.
  - refine (fit_logged now true cut _ _ [AVerbose; AStamp; APrimal p; AAppendLocal] max r H eq_refl _ eq_refl (ns_prog_ids every its max 0 sw)).
    destruct warm; reflexivity.
  - intros -> C. exact (ns_logs _ _ _ _ _ _ _ _ _ _ _ C H).
Qed.
Theorem C69_logger_oneslack : forall now every max sw warm its p cut k b r,
  os_curves now true every max sw warm its p cut k b = Ok r ->
  logged_in_order max r /\ (warm = false -> logs_agree r).
Proof.
  intros now every max sw warm its p cut k b r H. split.
  - refine (fit_logged now true cut _ _ [AStamp; APrimal p; AAppendLocal; ACached false] max r H eq_refl _ eq_refl (os_prog_ids every its max 0 sw)).
    destruct warm; reflexivity.
  - intros ->. exact (os_logs _ _ _ _ _ _ _ _ _ _ _ H).
Qed.
Theorem C69_logger_frankwolfe : forall now batch check max its p cut k b r,
  fw_curves now true batch check max its p cut k b = Ok r ->
  logged_in_order max r /\ (b_cached b = None -> logs_agree r).
Proof.
  intros now batch check max its p cut k b r H. split.
  - refine (fit_logged now true cut _ _ [AStamp; APrimal p; AAppendLast] max r H eq_refl eq_refl eq_refl _).
    destruct batch; [exact (fwb_prog_ids its max 0)|exact (fwbc_prog_ids check its max 0)].
  - intros C. exact (fw_logs _ _ _ _ _ _ _ _ _ _ _ C H).
Qed.
Theorem C69_logger_subgradient : forall now every max its v cut k b r,
  (sg_curves now true every max false its v cut k b = Ok r \/ lsg_curves now true every max false its v cut k b = Ok r) ->
  logged_in_order max r /\ (b_cached b = None -> b_primal b = None -> logs_agree r).
Proof.
  intros now every max its v cut k b r [H|H]; (split;
    [|intros C P; first [exact (sg_logs _ _ _ _ _ _ _ _ _ _ C P H)|exact (lsg_logs _ _ _ _ _ _ _ _ _ _ C P H)]]).
  - exact (fit_logged now true cut _ _ [AStamp; AAppendObj v] max r H eq_refl eq_refl eq_refl (sg_prog_ids every its max 0)).
  - exact (fit_logged now true cut _ _ [AStamp; AAppendObj v] max r H eq_refl eq_refl eq_refl (lsg_prog_ids every its max 0)).
Qed.

(** ** the time stamps *)
(** consecutive readings of the clock, relative to the start; also after an interrupt *)
Theorem C69_readings : forall now lg every max sw its_n its_o its_f its_s batch check p cut k b r,
  (ns_curves now lg every max sw None its_n p cut k b = Ok r \/ os_curves now lg every max sw false its_o p cut k b = Ok r \/
   fw_curves now lg batch check max its_f p cut k b = Ok r \/
   sg_curves now lg every max false its_s p cut k b = Ok r \/ lsg_curves now lg every max false its_s p cut k b = Ok r) ->
  exists n, b_times (r_book r) = Some (now k :: map (fun i => now (k + 1 + i)%nat - now k) (seq 0 n)) /\ r_clock r = (k + 1 + n)%nat.
Proof. intros until r. intros [H|[H|[H|[H|H]]]]; exact (fit_readings _ _ _ _ _ _ _ _ H eq_refl eq_refl). Qed.
(** never decreasing, also over warm starts of NSlackSSVM, OneSlackSSVM and SubgradientLatentSSVM *)
Theorem C69_stamps_nslack : forall now lg, clock now -> forall every max sw warm its p cut k b r,
  ns_curves now lg every max sw warm its p cut k b = Ok r ->
  (warm <> None -> stamps_ordered now k b) -> stamps_ordered now (r_clock r) (r_book r).
Proof. exact ns_ordered. Qed.
Theorem C69_stamps_oneslack : forall now lg, clock now -> forall every max sw warm its p cut k b r,
  os_curves now lg every max sw warm its p cut k b = Ok r ->
  (warm = true -> stamps_ordered now k b) -> stamps_ordered now (r_clock r) (r_book r).
Proof. exact os_ordered. Qed.
Theorem C69_stamps_frankwolfe : forall now lg, clock now -> forall batch check max its p cut k b r,
  fw_curves now lg batch check max its p cut k b = Ok r -> stamps_ordered now (r_clock r) (r_book r).
Proof. exact fw_ordered. Qed.
Theorem C69_stamps_subgradient : forall now lg, clock now -> forall every max its v cut k b r,
  sg_curves now lg every max false its v cut k b = Ok r -> stamps_ordered now (r_clock r) (r_book r).
Proof. exact sg_ordered. Qed.
Theorem C69_stamps_latent_subgradient : forall now lg, clock now -> forall every max warm its v cut k b r,
  lsg_curves now lg every max warm its v cut k b = Ok r ->
  (warm = true -> stamps_ordered now k b /\ forall ts, b_times b = Some ts -> (2 <= length ts)%nat) ->
  stamps_ordered now (r_clock r) (r_book r).
Proof. exact lsg_ordered. Qed.
(** A warm start of SubgradientSSVM subtracts the absolute time from all stamps: unless they are larger than the reading of
    the clock, the stamps are not seconds since the start any more. *)
Theorem C69_warm_stamps_refuted : forall now lg, clock now -> forall every max its v cut k b t0 ts r,
  sg_curves now lg every max true its v cut k b = Ok r -> b_times b = Some (t0 :: ts) -> (exists t, In t ts /\ t < now k) ->
  (forall k', ~ stamps_ordered now k' (r_book r)) /\
  exists e, b_times (r_book r) = Some ((t0 - now k) :: map (fun t => t - now k) ts ++ e) /\ e <> [] /\
    Forall (fun t => now k + (now k - t0) <= t) e.
Proof.
  intros now lg Hc every max its v cut k b t0 ts r H T I. split.
  - exact (sg_warm_disorder now lg Hc every max its v cut k b t0 ts r H T I).
  - exact (sg_warm_stamps now lg Hc every max its v cut k b t0 ts r H T).
Qed.

(** ** the training losses *)
(** in a first fit there is one for every show_loss_every-th iteration *)
Theorem C69_losses : forall now lg every max sw its_n its_o its_s p k b r,
  every <> 0%nat -> b_loss b = None ->
  (ns_curves now lg every max sw None its_n p None k b = Ok r \/ os_curves now lg every max false false its_o p None k b = Ok r \/
   sg_curves now lg every max false its_s p None k b = Ok r \/ lsg_curves now lg every max false its_s p None k b = Ok r) ->
  losses_due every (r_book r).
Proof.
  intros now lg every max sw its_n its_o its_s p k b r E L [H|[H|[H|H]]].
  - exact (ns_losses _ _ _ _ _ _ _ _ _ _ E L H). - exact (os_losses _ _ _ _ _ _ _ _ _ E L H).
  - exact (sg_losses _ _ _ _ _ _ _ _ _ E L H). - exact (lsg_losses _ _ _ _ _ _ _ _ _ E L H).
Qed.
(** They are drawn over the same axis as the objective exactly if the number of iterations is not a multiple of
    show_loss_every; otherwise the bare except draws them over 0, 1, 2, ... although the axis says 'training time (min)'. *)
Theorem C69_loss_axis : forall every b xs d,
  draws every b xs d -> losses_due every b -> every <> 0%nat -> forall o loss, b_obj b = Some o -> b_loss b = Some loss -> o <> [] ->
  d_error d = Some (if ((length o - 1) mod every =? 0)%nat then (map ofN (seq 0 (length loss)), loss)
                    else (map (fun i => nth i xs 0) (due every (length o)), loss)).
Proof. exact error_axis. Qed.
(** with show_loss_every = 1 never *)
Theorem C69_loss_axis_refuted : forall b xs d o loss,
  draws 1 b xs d -> losses_due 1 b -> b_obj b = Some o -> b_loss b = Some loss -> o <> [] ->
  d_error d = Some (map ofN (seq 0 (length loss)), loss).
Proof.
  intros b xs d o loss D L O B N. rewrite (error_axis 1 b xs d D L ltac:(discriminate) o loss O B N), Nat.mod_1_r. reflexivity.
Qed.
(** FrankWolfeSSVM takes show_loss_every and never records a training loss *)
Theorem C69_frankwolfe_losses_refuted : forall now lg batch check max its p cut k b r,
  fw_curves now lg batch check max its p cut k b = Ok r -> b_loss (r_book r) = b_loss b.
Proof. exact fw_no_losses. Qed.
(** loss_curve_ is not reset by a second fit, objective_curve_ is *)
Theorem C69_refit_losses_refuted : forall now lg every max sw its_n its_o its_s batch check its_f p cut k b r ls,
  b_loss b = Some ls ->
  (ns_curves now lg every max sw None its_n p cut k b = Ok r \/ os_curves now lg every max sw false its_o p cut k b = Ok r \/
   fw_curves now lg batch check max its_f p cut k b = Ok r \/
   sg_curves now lg every max false its_s p cut k b = Ok r \/ lsg_curves now lg every max false its_s p cut k b = Ok r) ->
  exists e, b_loss (r_book r) = Some (ls ++ e).
Proof. exact refit_losses. Qed.

(** ** interrupts *)
(** SubgradientSSVM and SubgradientLatentSSVM may be interrupted anywhere *)
Theorem C69_interrupted_subgradient : forall now lg every max its v cut k b r,
  b_cached b = None -> b_primal b = None ->
  (sg_curves now lg every max false its v cut k b = Ok r \/ lsg_curves now lg every max false its v cut k b = Ok r) ->
  exists ts o, b_times (r_book r) = Some ts /\ b_obj (r_book r) = Some o /\ (0 < length o)%nat /\
    (length ts = S (length o) \/ length ts = S (S (length o))) /\
    ((2 <= length o)%nat -> exists d, plot_learning true every (r_book r) = Ok d /\ draws every (r_book r) (minutes ts (length o)) d).
Proof.
  intros now lg every max its v cut k b r C P [H|H].
  - exact (sg_plot_cut _ _ _ _ _ _ _ _ _ _ C P H). - exact (lsg_plot_cut _ _ _ _ _ _ _ _ _ _ C P H).
Qed.
(** the others while they look for constraints *)
Theorem C69_interrupted_nslack : forall now lg every max sw its p j a k b r,
  b_cached b = None -> nth_error (ns_prog every its max 0 sw) j = Some a ->
  (a = ABatch \/ (exists v, a = AObjective v) \/ a = AAppendLocal) ->
  ns_curves now lg every max sw None its p (Some j) k b = Ok r -> curves_aligned 1 (r_book r).
Proof. exact ns_interrupted. Qed.
Theorem C69_interrupted_oneslack : forall now lg every max sw its p j k b r,
  nth_error (os_prog every its max 0 sw) j = Some AStamp ->
  os_curves now lg every max sw false its p (Some j) k b = Ok r ->
  curves_aligned 0 (r_book r) /\ exists o, b_obj (r_book r) = Some o /\ (2 <= length o)%nat.
Proof. exact os_interrupted. Qed.
Theorem C69_interrupted_frankwolfe : forall now lg (batch : bool) check max its p j v k b r,
  b_cached b = None -> nth_error (if batch then fwb_prog its max 0 else fwbc_prog check its max 0) j = Some (APrimal v) ->
  fw_curves now lg batch check max its p (Some j) k b = Ok r ->
  curves_aligned 0 (r_book r) /\ exists o, b_obj (r_book r) = Some o /\ (2 <= length o)%nat.
Proof. exact fw_interrupted. Qed.
(** but not everywhere: NSlackSSVM during the training loss, OneSlackSSVM during the QP, FrankWolfeSSVM between two appends *)
Theorem C69_interrupt_nslack_refuted : exists its j r,
  nth_error (ns_prog 1 its 3 0 false) j = Some ALossInit /\
  ns_curves ex30_now false 1 3 false None its 1 (Some j) 0 new_book = Ok r /\ plot_learning true 1 (r_book r) = Err ValueError.
Proof. exact ns_broken. Qed.
Theorem C69_interrupt_oneslack_refuted : exists its j v r,
  nth_error (os_prog 0 its 3 0 false) j = Some (AObjective v) /\
  os_curves ex30_now false 0 3 false false its 1 (Some j) 0 new_book = Ok r /\ plot_learning true 0 (r_book r) = Err ValueError.
Proof. exact os_broken. Qed.
Theorem C69_interrupt_frankwolfe_refuted : exists its j v r,
  nth_error (fwb_prog its 3 0) j = Some (AAppendObj v) /\
  fw_curves ex30_now false true 1 3 its 1 (Some j) 0 new_book = Ok r /\ plot_learning true 0 (r_book r) = Err ValueError.
Proof. exact fw_broken. Qed.

(** ** what does not work *)
(** the subgradient learners stop in the first epoch if nothing is to be learned; their single value cannot be plotted *)
Theorem C69_first_epoch_refuted : forall now lg every max its v k b r,
  b_cached b = None -> max = 0%nat \/ si_break (its 0%nat) = true ->
  (sg_curves now lg every max false its v None k b = Ok r \/ lsg_curves now lg every max false its v None k b = Ok r) ->
  plot_learning true every (r_book r) = Err IndexError.
Proof.
  intros now lg every max its v k b r C E [H|H].
  - exact (sg_first_epoch _ _ _ _ _ _ _ _ _ C E H). - exact (lsg_first_epoch _ _ _ _ _ _ _ _ _ C E H).
Qed.
(** "Should work with all learners": StructuredPerceptron has a loss_curve_ but no objective_curve_, DownhillSimplexSSVM has
    neither *)
Theorem C69_all_learners_refuted : forall time every ts p c loss,
  plot_learning time every (Book ts None p c loss) = Err AttributeError.
Proof. reflexivity. Qed.
(** FrankWolfeSSVM takes the stamp after it has recorded the values of the iteration (the logger already sees it); the plot
    shows the values at the next stamp *)
Theorem C69_late_refuted : exists r b ts0 ts o0 o d,
  fw_curves ex30_now true true 1 5 ex30_fw (ofN 7) None 0 new_book = Ok r /\
  nth_error (r_log r) 0 = Some (Some 0%nat, b) /\ b_times b = Some ts0 /\ length ts0 = 2%nat /\ b_obj b = Some o0 /\ length o0 = 1%nat /\
  b_times (r_book r) = Some ts /\ b_obj (r_book r) = Some o /\
  plot_learning true 0 (r_book r) = Ok d /\ nth 0 (fst (d_dual d)) 0 = nth 2 ts 0 / ofN 60 /\ nth 1 ts 0 < nth 2 ts 0.
Proof. exact (fw_late_gen ex30_now ex30_fw (ofN 7) 0 new_book fw_late_check eq_refl). Qed.

(** ** the hypotheses are met *)
Example C69_clock_met : clock ex30_now.
Proof. exact ex30_clock. Qed.
(** the runs succeed, with values; [run_of] is the run of an [Ok] *)
Definition nums (l : option (list Qc)) : option (list Q) := option_map (map this) l.
Definition seen (r : res run) : option (option (list Q) * option (list Q) * option (list Q) * option (list bool) * option (list Q) * list (option nat)) :=
  match r with
  | Ok r => let b := r_book r in
            Some (nums (b_times b), nums (b_obj b), nums (b_primal b), b_cached b, nums (b_loss b), map fst (r_log r))
  | Err _ => None
  end.
Local Open Scope Q_scope.
Example C69_nslack_met : seen (ns_curves ex30_now true 2 9 false None ex30_ns (ofN 7) None 0 new_book) =
  Some (Some [0; 60; 120; 180; 240; 300; 360], Some [0; 1; 2; 3; 4; 4], Some [1; 2; 3; 4; 5; 7], None, Some [9; 7; 5],
        [Some 0; Some 1; Some 2; Some 3; None]%nat).
Proof. vm_compute. reflexivity. Qed.
Example C69_oneslack_met : seen (os_curves ex30_now true 2 9 false false ex30_os (ofN 7) None 0 new_book) =
  Some (Some [0; 60; 120; 180; 240; 300], Some [1; 2; 3; 4; 4], Some [9; 8; 7; 6; 7], Some [false; true; false; false; false], Some [1; 1],
        [Some 0; Some 1; Some 2; Some 3; None]%nat).
Proof. vm_compute. reflexivity. Qed.
Example C69_frankwolfe_met : seen (fw_curves ex30_now true true 1 9 ex30_fw (ofN 7) None 0 new_book) =
  Some (Some [0; 60; 120; 180; 240], Some [0; 1; 2; 2], Some [9; 8; 7; 7], None, None, [Some 0; Some 1; Some 2; None]%nat).
Proof. vm_compute. reflexivity. Qed.
Example C69_block_frankwolfe_met : seen (fw_curves ex30_now true false 2 9 ex30_fw (ofN 7) None 0 new_book) =
  Some (Some [0; 60; 120; 180], Some [0; 2; 2], Some [9; 7; 7], None, None, [Some 0; Some 1; Some 2; None]%nat).
Proof. vm_compute. reflexivity. Qed.
Example C69_subgradient_met : seen (sg_curves ex30_now true 2 9 false ex30_sg (ofN 7) None 0 new_book) =
  Some (Some [0; 60; 120; 180; 240], Some [9; 8; 7; 7], None, None, Some [0; 2], [Some 0; Some 1; Some 2; None]%nat).
Proof. vm_compute. reflexivity. Qed.
(** the epoch in which it stops leaves a time stamp but no value *)
Example C69_latent_subgradient_stop : seen (lsg_curves ex30_now true 2 9 false ex30_sg (ofN 7) None 0 new_book) =
  Some (Some [0; 60; 120; 180; 240; 300], Some [9; 8; 7; 7], None, None, Some [0; 2], [Some 0; Some 1; Some 2; None]%nat).
Proof. vm_compute. reflexivity. Qed.
Example C69_latent_subgradient_met : seen (lsg_curves ex30_now true 2 2 false ex30_sg (ofN 7) None 0 new_book) =
  Some (Some [0; 60; 120; 180], Some [9; 8; 7], None, None, Some [0], [Some 0; Some 1; None]%nat).
Proof. vm_compute. reflexivity. Qed.
(** interrupted in the third iteration, while looking for constraints: NSlackSSVM has one stamp too many, OneSlackSSVM has not *)
Example C69_interrupted_met :
  nth_error (ns_prog 0 ex30_ns 9 0 false) 13 = Some ABatch /\
  seen (ns_curves ex30_now true 0 9 false None ex30_ns (ofN 7) (Some 13%nat) 0 new_book) =
  Some (Some [0; 60; 120; 180; 240], Some [0; 1; 1], Some [1; 2; 7], None, None, [Some 0; Some 1; None]%nat) /\
  nth_error (os_prog 0 ex30_os 9 0 false) 12 = Some AStamp /\
  seen (os_curves ex30_now true 0 9 false false ex30_os (ofN 7) (Some 12%nat) 0 new_book) =
  Some (Some [0; 60; 120; 180], Some [1; 2; 2], Some [9; 8; 7], Some [false; true; false], None, [Some 0; Some 1; None]%nat) /\
  nth_error (fwb_prog ex30_fw 9 0) 8 = Some (APrimal (ofN 7)).
Proof. repeat split. Qed.
(** the warm start of SubgradientSSVM: 600 s after the start *)
Example C69_warm_stamps_met :
  seen (sg_curves ex30_now false 0 1 true ex30_sg (ofN 7) None 10 (Book (Some [ofN 60; ofN 60; ofN 120]%nat) (Some [1; 1]%Qc) None None None)) =
  Some (Some [-540; -540; -480; 1200; 1260], Some [1; 1; 9; 7], None, None, None, []).
Proof. vm_compute. reflexivity. Qed.
(** a second fit keeps the old losses: three of them for one iteration *)
Example C69_refit_losses_met :
  seen (sg_curves ex30_now false 1 1 false ex30_sg (ofN 7) None 0 (Book None None None None (Some [1; 1]%Qc))) =
  Some (Some [0; 60; 120], Some [9; 7], None, None, Some [1; 1; 0], []).
Proof. vm_compute. reflexivity. Qed.
(** a plot: iterations, objective, gap, x-coordinates of the curves, of the iterations with inference and of the losses *)
Definition picture (time : bool) (every : nat) (x : res run) :=
  match x with
  | Ok r =>
      match plot_learning time every (r_book r) with
      | Ok d => Some (d_iterations d, this (d_objective d), option_map this (d_gap d), map this (fst (d_dual d)),
                      nums (option_map fst (d_inference d)), nums (option_map fst (d_error d)))
      | Err _ => None
      end
  | Err _ => None
  end.
Example C69_plot_met : picture true 3 (os_curves ex30_now true 3 9 false false ex30_os (ofN 7) None 0 new_book) =
  Some (5%nat, 4, Some 3, [2; 3; 4; 5; 5], Some [2; 4; 5; 5], Some [2; 5]).
Proof. vm_compute. reflexivity. Qed.
Example C69_plot_iterations_met : picture false 2 (os_curves ex30_now true 2 9 false false ex30_os (ofN 7) None 0 new_book) =
  Some (5%nat, 4, Some 3, [0; 1; 2; 3; 4], Some [0; 2; 3; 4], Some [0; 1]).
Proof. vm_compute. reflexivity. Qed.
Example C69_loss_axis_met : picture true 2 (sg_curves ex30_now true 2 9 false ex30_sg (ofN 7) None 0 new_book) =
  Some (4%nat, 7, None, [2; 3; 4; 4], None, Some [2; 4]) /\
  picture true 1 (sg_curves ex30_now true 1 9 false ex30_sg (ofN 7) None 0 new_book) =
  Some (4%nat, 7, None, [2; 3; 4; 4], None, Some [0; 1; 2]).
Proof. split; vm_compute; reflexivity. Qed.
Example C69_first_epoch_met : exists r,
  sg_curves ex30_now true 1 9 false (fun _ => SGIter true 0 0) (ofN 7) None 0 new_book = Ok r /\ plot_learning true 1 (r_book r) = Err IndexError.
Proof. eexists. split; [reflexivity|]. apply err_of_eq. vm_compute. reflexivity. Qed.

Print Assumptions C69_nslack.
Print Assumptions C69_oneslack.
Print Assumptions C69_frankwolfe.
Print Assumptions C69_subgradient.
Print Assumptions C69_latent_subgradient.
Print Assumptions C69_plot.
Print Assumptions C69_plot_iterations.
Print Assumptions C69_plot_ordered.
Print Assumptions C69_model_nslack.
Print Assumptions C69_model_oneslack.
Print Assumptions C69_model_frankwolfe.
Print Assumptions C69_model_subgradient.
Print Assumptions C69_model_latent_subgradient.
Print Assumptions C69_logger_nslack.
Print Assumptions C69_logger_oneslack.
Print Assumptions C69_logger_frankwolfe.
Print Assumptions C69_logger_subgradient.
Print Assumptions C69_readings.
Print Assumptions C69_stamps_nslack.
Print Assumptions C69_stamps_oneslack.
Print Assumptions C69_stamps_frankwolfe.
Print Assumptions C69_stamps_subgradient.
Print Assumptions C69_stamps_latent_subgradient.
Print Assumptions C69_warm_stamps_refuted.
Print Assumptions C69_losses.
Print Assumptions C69_loss_axis.
Print Assumptions C69_loss_axis_refuted.
Print Assumptions C69_frankwolfe_losses_refuted.
Print Assumptions C69_refit_losses_refuted.
Print Assumptions C69_interrupted_subgradient.
Print Assumptions C69_interrupted_nslack.
Print Assumptions C69_interrupted_oneslack.
Print Assumptions C69_interrupted_frankwolfe.
Print Assumptions C69_interrupt_nslack_refuted.
Print Assumptions C69_interrupt_oneslack_refuted.
Print Assumptions C69_interrupt_frankwolfe_refuted.
Print Assumptions C69_first_epoch_refuted.
Print Assumptions C69_all_learners_refuted.
Print Assumptions C69_late_refuted.

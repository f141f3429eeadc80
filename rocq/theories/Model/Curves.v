(** The bookkeeping of the fit methods: timestamps_, objective_curve_, primal_objective_curve_,
    cached_constraint_, loss_curve_, the calls of the logger, and KeyboardInterrupt.

    A fit is a list of elementary actions.  The numbers that are appended (objectives, training
    losses) and the decisions to stop are inputs here, one record per iteration; the models of
    the learners (NSlack.v, OneSlack.v, FrankWolfe.v, Subgradient.v, SubgradientLatent.v) say
    which numbers they are.  KeyboardInterrupt may arrive between any two actions of the try
    block (which is where the long computations are).  time() is the argument [now]: [now k] is
    the k-th reading.  The logger does not change the learner.  show_loss_every is a [nat]
    (negative values are not modelled). *)
From Verif Require Export Model.Numpy.

(** the attributes of a learner; [None]: the attribute does not exist *)
Record book := Book {
  b_times : option (list Qc); b_obj : option (list Qc); b_primal : option (list Qc);
  b_cached : option (list bool); b_loss : option (list Qc) }.
Definition new_book : book := Book None None None None None.

(** a running fit: attributes, readings of the clock so far, the local variables objective and
    verbose (n_slack_ssvm.py 305 and 388; only whether it is bound), calls of the logger with the
    attributes it sees ([None]: 'final') *)
Record run := Run {
  r_book : book; r_clock : nat; r_objective : option Qc; r_verbose : bool;
  r_log : list (option nat * book) }.

Inductive act :=
| AStamp                    (* self.timestamps_.append(time() - self.timestamps_[0]) *)
| ABatch                    (* verbose = ... *)
| AObjective (v : Qc)       (* objective = ... *)
| AAppendLocal              (* self.objective_curve_.append(objective) *)
| AAppendObj (v : Qc)       (* self.objective_curve_.append(v) *)
| AAppendLast               (* self.objective_curve_.append(self.objective_curve_[-1]) *)
| APrimal (v : Qc)          (* self.primal_objective_curve_.append(v) *)
| ACached (c : bool)        (* self.cached_constraint_.append(c) *)
| ALossInit                 (* if not hasattr(self, 'loss_curve_'): self.loss_curve_ = [] *)
| ALoss (v : Qc)            (* self.loss_curve_.append(v) *)
| ALog (i : option nat)     (* self.logger(self, i) *)
| AVerbose                  (* if verbose: *)
| AFail (e : exn).

Definition append_to {A} (l : option (list A)) (a : A) : res (option (list A)) :=
  match l with Some l => Ok (Some (l ++ [a])) | None => Err AttributeError end.
Definition last_entry {A} (l : list A) : res A :=
  match l with [] => Err IndexError | a :: r => Ok (last r a) end.
Definition set_book (b : book) (r : run) : run := Run b (r_clock r) (r_objective r) (r_verbose r) (r_log r).

Section Clock.
  Variable now : nat -> Qc.

  (** [logger]: whether self.logger is not None *)
  Definition act1 (logger : bool) (a : act) (r : run) : res run :=
    let b := r_book r in
    match a with
    | AStamp =>
        match b_times b with
        | None => Err AttributeError
        | Some [] => Err IndexError
        | Some (t0 :: ts) =>
            Ok (Run (Book (Some ((t0 :: ts) ++ [now (r_clock r) - t0])) (b_obj b) (b_primal b) (b_cached b) (b_loss b))
                  (S (r_clock r)) (r_objective r) (r_verbose r) (r_log r))
        end
    | ABatch => Ok (Run b (r_clock r) (r_objective r) true (r_log r))
    | AObjective v => Ok (Run b (r_clock r) (Some v) (r_verbose r) (r_log r))
    | AAppendLocal =>
        match r_objective r with
        | None => Err UnboundLocalError
        | Some v => let! o := append_to (b_obj b) v in
                    Ok (set_book (Book (b_times b) o (b_primal b) (b_cached b) (b_loss b)) r)
        end
    | AAppendObj v => let! o := append_to (b_obj b) v in
                      Ok (set_book (Book (b_times b) o (b_primal b) (b_cached b) (b_loss b)) r)
    | AAppendLast =>
        match b_obj b with
        | None => Err AttributeError
        | Some o => let! v := last_entry o in
                    Ok (set_book (Book (b_times b) (Some (o ++ [v])) (b_primal b) (b_cached b) (b_loss b)) r)
        end
    | APrimal v => let! p := append_to (b_primal b) v in
                   Ok (set_book (Book (b_times b) (b_obj b) p (b_cached b) (b_loss b)) r)
    | ACached c => let! l := append_to (b_cached b) c in
                   Ok (set_book (Book (b_times b) (b_obj b) (b_primal b) l (b_loss b)) r)
    | ALossInit => Ok (set_book (Book (b_times b) (b_obj b) (b_primal b) (b_cached b)
                                   (match b_loss b with Some l => Some l | None => Some [] end)) r)
    | ALoss v => let! l := append_to (b_loss b) v in
                 Ok (set_book (Book (b_times b) (b_obj b) (b_primal b) (b_cached b) l) r)
    | ALog i => Ok (if logger then Run b (r_clock r) (r_objective r) (r_verbose r) (r_log r ++ [(i, b)]) else r)
    | AVerbose => if r_verbose r then Ok r else Err UnboundLocalError
    | AFail e => Err e
    end.
  Fixpoint acts (logger : bool) (l : list act) (r : run) : res run :=
    match l with
    | [] => Ok r
    | a :: l => let! r := act1 logger a r in acts logger l r
    end.

  (** [_compute_training_loss], ssvm.py 86-95 *)
  Definition loss_acts (every it : nat) (v : Qc) : list act :=
    if negb (every =? 0)%nat && (it mod every =? 0)%nat then [ALossInit; ALoss v] else [].

  (** the try block: all of it, or what happens before KeyboardInterrupt *)
  Definition until (cut : option nat) (l : list act) : list act :=
    match cut with None => l | Some j => firstn j l end.
  Definition started (b : book) (k : nat) (objective : option Qc) : run := Run b k objective false [].
  Definition fit_acts (logger : bool) (cut : option nat) (r : run) (body final : list act) : res run :=
    let! r := acts logger (until cut body) r in acts logger final r.

  (** ** NSlackSSVM.fit, n_slack_ssvm.py 275-399 *)
  (** one iteration: per batch the value of the QP if it added constraints; the training loss; the
      primal objective; stopping_criterion *)
  Record ns_iter := NSIter { ni_batches : list (option Qc); ni_loss : Qc; ni_primal : Qc; ni_stop : bool }.
  (** lines 289-349 *)
  Definition ns_acts (every it : nat) (i : ns_iter) : list act :=
    AStamp ::
    flat_map (fun q => ABatch :: match q with Some v => [AObjective v] | None => [] end) (ni_batches i) ++
    [AAppendLocal] ++ loss_acts every it (ni_loss i) ++ [APrimal (ni_primal i)].
  (** the loop, lines 286-384; [sw]: the inference method can still be switched *)
  Fixpoint ns_prog (every : nat) (its : nat -> ns_iter) (k it : nat) (sw : bool) : list act :=
    match k with
    | O => []
    | S k' =>
        ns_acts every it (its it) ++
        (if ni_stop (its it)
         then if sw then ns_prog every its k' (S it) false else []
         else ALog (Some it) :: ns_prog every its k' (S it) sw)
    end.
  (** [warm]: the value of the first QP if constraints were given; [p]: the final _objective *)
  Definition ns_curves (logger : bool) (every max_iter : nat) (sw : bool) (warm : option Qc) (its : nat -> ns_iter)
             (p : Qc) (cut : option nat) (k : nat) (b : book) : res run :=
    let r := match warm with
             | None => started (Book (Some [now k]) (Some []) (Some []) (b_cached b) (b_loss b)) (S k) None
             | Some v => started b k (Some v)
             end in
    fit_acts logger cut r (ns_prog every its max_iter 0 sw)
      [AVerbose; AStamp; APrimal p; AAppendLocal; ALog None].

  (** ** OneSlackSSVM.fit, one_slack_ssvm.py 431-552 *)
  (** one iteration: no constraint was found, or: training loss, primal objective, whether the
      constraint came from the cache, value of the QP *)
  Inductive os_iter := OINone | OIFound (loss primal : Qc) (cached : bool) (objective : Qc).
  (** lines 468-534 *)
  Fixpoint os_prog (every : nat) (its : nat -> os_iter) (k it : nat) (sw : bool) : list act :=
    match k with
    | O => []
    | S k' =>
        match its it with
        | OINone => if sw then os_prog every its k' (S it) false else []
        | OIFound l p c o =>
            AStamp :: loss_acts every it l ++
            [APrimal p; ACached c; AObjective o; AAppendLocal; ALog (Some it)] ++
            os_prog every its k' (S it) sw
        end
    end.
  (** [warm]: warm_start is True or "soft" *)
  Definition os_curves (logger : bool) (every max_iter : nat) (sw warm : bool) (its : nat -> os_iter)
             (p : Qc) (cut : option nat) (k : nat) (b : book) : res run :=
    let r := if warm then started b k None
             else started (Book (Some [now k]) (Some []) (Some []) (Some []) (b_loss b)) (S k) None in
    fit_acts logger cut r (os_prog every its max_iter 0 sw)
      [AStamp; APrimal p; AAppendLocal; ACached false; ALog None].

  (** ** FrankWolfeSSVM.fit, frankwolfe_ssvm.py 158-309 *)
  (** primal value, dual value, dual_gap < tol *)
  Record fw_iter := FWIter { fi_primal : Qc; fi_dual : Qc; fi_stop : bool }.
  Definition fw_checked (i : fw_iter) : list act := [APrimal (fi_primal i); AAppendObj (fi_dual i); AStamp].
  (** [_frank_wolfe_batch], lines 158-195 *)
  Fixpoint fwb_prog (its : nat -> fw_iter) (k it : nat) : list act :=
    match k with
    | O => []
    | S k' => fw_checked (its it) ++ ALog (Some it) :: (if fi_stop (its it) then [] else fwb_prog its k' (S it))
    end.
  (** [_frank_wolfe_bc], lines 210-268; with check_dual_every = 0 the variable dual_gap is unbound *)
  Fixpoint fwbc_prog (check : nat) (its : nat -> fw_iter) (k it : nat) : list act :=
    match k with
    | O => []
    | S k' =>
        (if negb (check =? 0)%nat && (it mod check =? 0)%nat then fw_checked (its it) else []) ++
        ALog (Some it) ::
        (if (check =? 0)%nat then [AFail UnboundLocalError]
         else if fi_stop (its it) then [] else fwbc_prog check its k' (S it))
    end.
  Definition fw_curves (logger batch : bool) (check max_iter : nat) (its : nat -> fw_iter)
             (p : Qc) (cut : option nat) (k : nat) (b : book) : res run :=
    fit_acts logger cut (started (Book (Some [now k]) (Some []) (Some []) (b_cached b) (b_loss b)) (S k) None)
      (if batch then fwb_prog its max_iter 0 else fwbc_prog check its max_iter 0)
      [AStamp; APrimal p; AAppendLast; ALog None].

  (** ** SubgradientSSVM.fit, subgradient_ssvm.py 185-236 *)
  (** no positive slack and break_on_no_constraints; objective; training loss *)
  Record sg_iter := SGIter { si_break : bool; si_obj : Qc; si_loss : Qc }.
  Fixpoint sg_prog (every : nat) (its : nat -> sg_iter) (k it : nat) : list act :=
    match k with
    | O => []
    | S k' =>
        if si_break (its it) then []
        else [AStamp; AAppendObj (si_obj (its it))] ++ loss_acts every it (si_loss (its it)) ++
             ALog (Some it) :: sg_prog every its k' (S it)
    end.
  (** line 196 *)
  Definition sg_rewind (t : Qc) (ts : list Qc) : list Qc := map (fun x => x - t) ts.
  Definition sg_curves (logger : bool) (every max_iter : nat) (warm : bool) (its : nat -> sg_iter)
             (o : Qc) (cut : option nat) (k : nat) (b : book) : res run :=
    let! r := (if warm then
                 match b_times b with
                 | None => Err AttributeError
                 | Some ts => Ok (started (Book (Some (sg_rewind (now k) ts)) (b_obj b) (b_primal b) (b_cached b)
                                             (b_loss b)) (S k) None)
                 end
               else Ok (started (Book (Some [now k]) (Some []) (b_primal b) (b_cached b) (b_loss b)) (S k) None)) in
    fit_acts logger cut r (sg_prog every its max_iter 0) [AStamp; AAppendObj o; ALog None].

  (** ** SubgradientLatentSSVM.fit, subgradient_latent_ssvm.py 137-237 *)
  Fixpoint lsg_prog (every : nat) (its : nat -> sg_iter) (k it : nat) : list act :=
    match k with
    | O => []
    | S k' =>
        AStamp ::
        (if si_break (its it) then []
         else AAppendObj (si_obj (its it)) :: loss_acts every it (si_loss (its it)) ++
              ALog (Some it) :: lsg_prog every its k' (S it))
    end.
  (** line 147: timestamps_[0] = time() - timestamps_[-1] *)
  Definition lsg_rewind (t : Qc) (ts : list Qc) : res (list Qc) :=
    let! l := last_entry ts in Ok ((t - l) :: tl ts).
  Definition lsg_curves (logger : bool) (every max_iter : nat) (warm : bool) (its : nat -> sg_iter)
             (o : Qc) (cut : option nat) (k : nat) (b : book) : res run :=
    let! r := (if warm then
                 match b_times b with
                 | None => Err AttributeError
                 | Some ts => let! ts := lsg_rewind (now k) ts in
                              Ok (started (Book (Some ts) (b_obj b) (b_primal b) (b_cached b) (b_loss b)) (S k) None)
                 end
               else Ok (started (Book (Some [now k]) (Some []) (b_primal b) (b_cached b) (b_loss b)) (S k) None)) in
    fit_acts logger cut r (lsg_prog every its max_iter 0) [AStamp; AAppendObj o; ALog None].
End Clock.

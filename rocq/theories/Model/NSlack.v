(** Model of pystruct/learners/n_slack_ssvm.py (NSlackSSVM).

    Not modelled: printing, time stamps, the logger, the training-loss curve
    (show_loss_every=0), KeyboardInterrupt (Model/Interrupt.v).  Parallel(...) is a map.  The model object is
    already initialised. *)
From Coq Require Import ZArith.
From Verif Require Export Model.Learner Model.QP.

Record ns_params := NSParams {
  ns_C : Qc; ns_max_iter : nat; ns_tol : Qc; ns_check : bool; ns_break : bool;
  ns_neg : option (list nat); ns_batch : Z; ns_threshold : Qc; ns_window : nat }.

(** a working-set entry [y_hat, delta_joint_feature, loss] *)
Definition ncon (Y : Type) : Type := (Y * list Qc * Qc)%type.
Definition ncon_pair {Y} (c : ncon Y) : list Qc * Qc := (snd (fst c), snd c).

(** [prune_constraints], lines 402-430: one sample. [counts] is self.last_active[i]. *)
Definition keep_counts {A} (window : nat) (sample : list A) (counts : list nat) : list (A * nat) :=
  filter (fun p => (snd p <=? window)%nat) (combine sample counts).
Definition prune_sample {A} (limit : Qc) (window : nat) (sample : list A) (counts : list nat) (a : list Qc)
  : res (list A * list nat) :=
  let counts := if (length counts <? length sample)%nat then counts ++ [O] else counts in
  (* boolean index of another length *)
  let! _ := ensure ((length counts =? length sample) && (length a =? length sample))%nat IndexError in
  let counts := zipw (fun c v => if Qcltb v limit then S c else c) counts a in
  let kept := keep_counts window sample counts in
  Ok (map fst kept, map snd kept).
Fixpoint prune_loop {A} (limit : Qc) (window : nat) (cs : list (list A)) (active : list (list nat)) (a : list Qc)
  : res (list (list A) * list (list nat)) :=
  match cs with
  | [] => Ok ([], active)
  | s :: r =>
      match s, active with
      | [], _ =>                                        (* continue *)
          let! q := prune_loop limit window r (tl active) a in
          Ok (s :: fst q, match active with [] => snd q | c :: _ => c :: snd q end)
      | _, [] => Err IndexError                         (* self.last_active[i] *)
      | _, c :: active' =>
          let! p := prune_sample limit window s c (firstn (length s) a) in
          let! q := prune_loop limit window r active' (skipn (length s) a) in
          Ok (fst p :: fst q, snd p :: snd q)
      end
  end.
Definition prune_constraints {A} (prm : ns_params) (cs : list (list A)) (active : list (list nat)) (a : list Qc)
  : res (list (list A) * list (list nat)) :=
  if (ns_window prm =? 0)%nat then Ok (cs, active)
  else prune_loop (ns_threshold prm * ns_C prm) (ns_window prm) cs active a.

(** [_solve_n_slack_qp], lines 141-204: new w, objective, working set and counters *)
Definition solve_n_slack_qp {Y} (solve : qp_solver) (prm : ns_params) (n_samples : nat)
           (cs : list (list (ncon Y))) (active : list (list nat))
  : res (list Qc * Qc * list (list (ncon Y)) * list (list nat)) :=
  let psis := map (fun c => fst (ncon_pair c)) (concat cs) in
  let losses := map (fun c => snd (ncon_pair c)) (concat cs) in
  let! r := run_qp solve (n_slack_problem (ns_C prm) (ns_neg prm) n_samples psis losses (map (@length _) cs)) in
  let! p := prune_constraints prm cs active (fst r) in
  let! w := weights (fst r) psis in
  Ok (w, snd r, fst p, snd p).

(** 1e-5 *)
Definition small : Qc := Q2Qc (1 # 100000).

(** [_check_bad_constraint], lines 206-238.  [yeq] is np.all(unwrap_pairwise(.) ==
    unwrap_pairwise(.)). *)
Fixpoint check_old {Y} (prm : ns_params) (w : list Qc) (slack : Qc) (old : list (ncon Y)) : res bool :=
  match old with
  | [] => Ok false
  | c :: r =>
      let! d := np_dot w (snd (fst c)) in
      if Qcltb (slack - Qcmax (snd c - d) 0) (- small)
      then (if ns_break prm then Err ValueError else Ok true)
      else check_old prm w slack r
  end.
Definition check_bad_constraint {Y} (yeq : Y -> Y -> bool) (prm : ns_params) (w : list Qc)
           (y_hat : Y) (slack : Qc) (old : list (ncon Y)) : res bool :=
  if Qcltb slack small then Ok true
  else if existsb (fun c => yeq y_hat (fst (fst c))) old then Ok true
  else if ns_check prm then check_old prm w slack old else Ok false.

(** constraints[i].append(c) *)
Fixpoint append_at {A} (i : nat) (c : A) (cs : list (list A)) : res (list (list A)) :=
  match cs, i with
  | [], _ => Err IndexError
  | s :: r, O => Ok ((s ++ [c]) :: r)
  | s :: r, S j => let! r' := append_at j c r in Ok (s :: r')
  end.

(** the loop over the samples of a batch, lines 306-325: working set, number of new
    constraints, sum of the slacks *)
Fixpoint gather {Y} (yeq : Y -> Y -> bool) (prm : ns_params) (w : list Qc)
         (cands : list (nat * (Y * list Qc * Qc * Qc))) (cs : list (list (ncon Y))) (new : nat) (slacks : Qc)
  : res (list (list (ncon Y)) * nat * Qc) :=
  match cands with
  | [] => Ok (cs, new, slacks)
  | (i, (y_hat, delta, slack, loss)) :: r =>
      let slacks := slacks + slack in
      if negb (Qcltb 0 loss) then gather yeq prm w r cs new slacks
      else
        let! old := (match nth_error cs i with Some s => Ok s | None => Err IndexError end) in
        let! bad := check_bad_constraint yeq prm w y_hat slack old in
        if bad then gather yeq prm w r cs new slacks
        else let! cs' := append_at i (y_hat, delta, loss) cs in
             gather yeq prm w r cs' (S new) slacks
  end.

(** sklearn.utils.gen_even_slices(n, n_packs), third party: consecutive slices, the first
    n mod n_packs of them one longer *)
Fixpoint even_slices_from (start n q rest : nat) (packs : nat) : list (nat * nat) :=
  match packs with
  | O => []
  | S k => let len := (q + (if (0 <? rest)%nat then 1 else 0))%nat in
           if (0 <? len)%nat
           then (start, Nat.min n (start + len)) :: even_slices_from (Nat.min n (start + len)) n q (rest - 1) k
           else even_slices_from start n q (rest - 1) k
  end.
Definition gen_even_slices (n packs : nat) : res (list (nat * nat)) :=
  if (packs <? 1)%nat then Err ValueError
  else Ok (even_slices_from 0 n (n / packs) (n mod packs) packs).
(** lines 283-291 *)
Definition batch_slices (batch_size : Z) (n : nat) : res (list (nat * nat)) :=
  if ((batch_size <? 1) && negb (batch_size =? -1))%Z then Err ValueError
  else let b := if (batch_size =? -1)%Z then n else Z.to_nat batch_size in
       if (b =? 0)%nat then Err ZeroDivisionError
       else gen_even_slices n ((n + b - 1) / b).

(** learner attributes and local variables of fit *)
Record ns_state (Y : Type) := NSState {
  st_w : list Qc; st_cons : list (list (ncon Y)); st_active : list (list nat);
  st_objective : option Qc }.
Arguments NSState {Y}. Arguments st_w {Y}. Arguments st_cons {Y}. Arguments st_active {Y}. Arguments st_objective {Y}.

(** one batch, lines 294-332 *)
Definition ns_batch_step {X Y} (yeq : Y -> Y -> bool) (solve : qp_solver) (prm : ns_params) (m : smodel X Y)
           (samples : list (X * Y)) (n_samples : nat) (b : nat * nat) (st : ns_state Y) (slacks : Qc)
  : res (ns_state Y * nat * Qc) :=
  let batch := slice (fst b) (snd b) samples in
  let! cands := mapM (fun p => find_constraint m (fst p) (snd p) (st_w st) None true) batch in
  let! g := gather yeq prm (st_w st) (combine (seq (fst b) (snd b - fst b)) cands) (st_cons st) 0 slacks in
  let '(cs, new, slacks) := g in
  if (new =? 0)%nat then Ok (NSState (st_w st) cs (st_active st) (st_objective st), O, slacks)
  else let! r := solve_n_slack_qp solve prm n_samples cs (st_active st) in
       let '(w, obj, cs, active) := r in
       Ok (NSState w cs active (Some obj), new, slacks).
Fixpoint ns_batches {X Y} (yeq : Y -> Y -> bool) (solve : qp_solver) (prm : ns_params) (m : smodel X Y)
         (samples : list (X * Y)) (n_samples : nat) (bs : list (nat * nat)) (st : ns_state Y) (new : nat) (slacks : Qc)
  : res (ns_state Y * nat * Qc) :=
  match bs with
  | [] => Ok (st, new, slacks)
  | b :: r => let! q := ns_batch_step yeq solve prm m samples n_samples b st slacks in
              let '(st, k, slacks) := q in
              ns_batches yeq solve prm m samples n_samples r st (new + k) slacks
  end.

(** why the main loop ended *)
Inductive ns_stop := NoNewConstraint | ObjectiveConverged | MaxIter.

(** objective_curve_[-1] - objective_curve_[-2] *)
Definition last_step (curve : list Qc) : Qc :=
  get1 curve (length curve - 1) - get1 curve (length curve - 2).

(** the main loop, lines 270-376: [k] iterations remain, [it] is the iteration counter;
    [sw] is the model after switching to self.switch_to, if that is another method.
    Result: state, both curves, reason, model in use. *)
Fixpoint ns_loop {X Y} (yeq : Y -> Y -> bool) (solve : qp_solver) (prm : ns_params)
         (samples : list (X * Y)) (n_samples : nat) (k it : nat) (m : smodel X Y) (sw : option (smodel X Y))
         (st : ns_state Y) (curve primal : list Qc)
  : res (ns_state Y * list Qc * list Qc * ns_stop * smodel X Y) :=
  match k with
  | O => Ok (st, curve, primal, MaxIter, m)
  | S k' =>
      let! bs := batch_slices (ns_batch prm) n_samples in
      let! q := ns_batches yeq solve prm m samples n_samples bs st 0 0 in
      let '(st, new, slacks) := q in
      let! obj := (match st_objective st with Some o => Ok o | None => Err UnboundLocalError end) in
      let curve := curve ++ [obj] in
      let primal := primal ++ [ns_C prm * slacks + normsq (st_w st) / (1 + 1)] in
      let converged := (1 <? it)%nat && Qcltb (last_step curve) (ns_tol prm) in
      if (new =? 0)%nat || converged then
        match sw with
        | Some m' => ns_loop yeq solve prm samples n_samples k' (S it) m' None st curve primal
        | None => Ok (st, curve, primal, if (new =? 0)%nat then NoNewConstraint else ObjectiveConverged, m)
        end
      else ns_loop yeq solve prm samples n_samples k' (S it) m sw st curve primal
  end.

(** what an earlier fit left behind: last_active and the curves *)
Record ns_attrs := NSAttrs { at_active : list (list nat); at_curve : list Qc; at_primal : list Qc }.

(** [fit], lines 240-400.  Result: w, constraints_, both curves, reason, last_active. *)
Definition ns_fit {X Y} (yeq : Y -> Y -> bool) (solve : qp_solver) (prm : ns_params) (m : smodel X Y)
           (sw : option (smodel X Y)) (Xs : list X) (Ys : list Y)
           (constraints : option (list (list (ncon Y)))) (old : option ns_attrs)
  : res (ns_state Y * list Qc * list Qc * ns_stop) :=
  let n := length Xs in
  let samples := combine Xs Ys in
  let! start := (match constraints with
                 | None => Ok (NSState (vzero (sm_size m)) (repeat [] n) (repeat [] n) None, [], [])
                 | Some cs =>
                     (* self.last_active / self.timestamps_ of an earlier fit; last_active is
                        only read when pruning *)
                     match old with
                     | None => Err AttributeError
                     | Some o =>
                         let! r := solve_n_slack_qp solve prm n cs (at_active o) in
                         let '(w, obj, cs, active) := r in
                         Ok (NSState w cs active (Some obj), at_curve o, at_primal o)
                     end
                 end) in
  let '(st, curve, primal) := start in
  let! r := ns_loop yeq solve prm samples n (ns_max_iter prm) 0 m sw st curve primal in
  let '(st, curve, primal, reason, m) := r in
  (* 'if verbose' reads the local variable bound inside the batch loop *)
  let! _ := ensure (negb (ns_max_iter prm =? 0)%nat) UnboundLocalError in
  let! p := objective_primal m (st_w st) Xs Ys (ns_C prm) NSlack in
  let! obj := (match st_objective st with Some o => Ok o | None => Err UnboundLocalError end) in
  Ok (st, curve ++ [obj], primal ++ [p], reason).

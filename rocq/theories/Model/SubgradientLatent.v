(** Model of pystruct/learners/subgradient_latent_ssvm.py (SubgradientLatentSSVM.fit).

    Not modelled: printing, time stamps, the logger, show_loss_every, KeyboardInterrupt.  H_init
    is ignored by the code.  The random initial weights are the argument [w0].  The model object
    is already initialised. *)
From Coq Require Import ZArith.
From Verif Require Export Model.Subgradient Model.LatentLearner.

(** online learning, lines 157-171: new state and slack *)
Definition lsg_online_step {X Y} (prm : sg_params) (m : lmodel X Y) (n : nat) (lr : Qc) (p : X * Y) (st : sg_state)
  : res (sg_state * Qc) :=
  let s := lm_s m in
  let! h := lm_latent m (fst p) (snd p) (sg_w st) in
  let! h_hat := sm_laug s (fst p) h (sg_w st) in
  let! f := sm_joint s (fst p) h None in
  let! f_hat := sm_joint s (fst p) h_hat None in
  let! delta := np_vsub f f_hat in
  let! d := np_dot delta (sg_w st) in
  let! loss := (if sm_tuple s h_hat then sm_closs s h h_hat else sm_loss s h h_hat) in
  let! st := solve_subgradient prm n lr delta st in
  Ok (st, - d + loss).
Fixpoint lsg_online {X Y} (prm : sg_params) (m : lmodel X Y) (n : nat) (lr : Qc) (S : list (X * Y)) (st : sg_state)
         (pos : nat) (obj : Qc) : res (sg_state * nat * Qc) :=
  match S with
  | [] => Ok (st, pos, obj)
  | p :: r => let! q := lsg_online_step prm m n lr p st in
              lsg_online prm m n lr r (fst q) (if Qcltb 0 (snd q) then Datatypes.S pos else pos) (obj + Qcmax (snd q) 0)
  end.
(** parallel learning, lines 172-201: slacks of all samples, differences of all samples *)
Fixpoint lsg_gather {Y} (cs : list (Y * list Qc * Qc * Qc)) (dj : list Qc) (pos : nat) (obj : Qc) : res (list Qc * nat * Qc) :=
  match cs with
  | [] => Ok (dj, pos, obj)
  | (_, delta, slack, _) :: r =>
      let! dj := np_vadd dj delta in
      lsg_gather r dj (if Qcltb 0 slack then Datatypes.S pos else pos) (obj + slack)
  end.
Fixpoint lsg_par {X Y} (prm : sg_params) (m : lmodel X Y) (n : nat) (lr : Qc) (Bs : list (list (X * Y))) (st : sg_state)
         (pos : nat) (obj : Qc) : res (sg_state * nat * Qc) :=
  match Bs with
  | [] => Ok (st, pos, obj)
  | B :: r =>
      let! cs := mapM (fun p => find_constraint_latent m (fst p) (snd p) (sg_w st)) B in
      let! q := lsg_gather cs (vzero (sm_size (lm_s m))) pos obj in
      let '(dj, pos, obj) := q in
      let! _ := ensure (negb (length B =? 0)%nat) NonFinite in
      let! st := solve_subgradient prm n lr (vscale (/ ofN (length B)) dj) st in
      lsg_par prm m n lr r st pos obj
  end.
Definition lsg_epoch {X Y} (prm : sg_params) (m : lmodel X Y) (lr : Qc) (S : list (X * Y)) (st : sg_state)
  : res (sg_state * nat * Qc) :=
  if (sg_jobs prm =? 1)%Z then lsg_online prm m (length S) lr S st 0 0
  else if (sg_jobs prm =? -1)%Z then
    let! sl := sg_slices (length S) (Z.of_nat (sg_cpus prm)) in
    lsg_par prm m (length S) lr (map (fun s => slice (fst s) (snd s) S) sl) st 0 0
  else Err AttributeError.  (* self.j_jobs, line 179 *)
(** lines 149-224: state, objective_curve_ *)
Fixpoint lsg_loop {X Y} (prm : sg_params) (m : lmodel X Y) (lr : Qc) (S : list (X * Y)) (k : nat) (st : sg_state)
         (curve : list Qc) : res (sg_state * list Qc) :=
  match k with
  | O => Ok (st, curve)
  | Datatypes.S k' =>
      let! q := lsg_epoch prm m lr S st in
      let '(st, pos, obj) := q in
      if ((pos =? 0)%nat && sg_break prm)%bool then Ok (st, curve)
      else lsg_loop prm m lr S k' st (curve ++ [obj * sg_C prm + normsq (sg_self st) / (1 + 1)])
  end.
(** [fit], lines 108-237 *)
Definition lsg_fit {X Y} (prm : sg_params) (m : lmodel X Y) (w0 : list Qc) (warm : bool) (S : list (X * Y)) (L : sg_learner) : res sg_learner :=
  let d := sm_size (lm_s m) in
  let! lc := (if warm then match sl_fitted L with
                           | Some (_, lr, c) => Ok (lr, c)
                           | None => Err AttributeError  (* timestamps_ *)
                           end
              else Ok (match sg_lr prm with None => sg_C prm * ofN (length S) | Some r => r end, [])) in
  let w := match sl_fitted L with Some (w, _, _) => w | None => w0 end in
  let! q := lsg_loop prm m (fst lc) S (sg_max_iter prm) (SGState w w (vzero d) (sl_t L)) (snd lc) in
  let '(st, curve) := q in
  let! o := latent_objective m (sg_C prm) (sg_self st) S in
  Ok (SGLearner (sg_t st) (Some (sg_self st, fst lc, curve ++ [o]))).

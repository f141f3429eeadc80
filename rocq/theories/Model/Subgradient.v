(** Model of pystruct/learners/subgradient_ssvm.py (SubgradientSSVM).

    Not modelled: printing, time stamps, the logger, show_loss_every, KeyboardInterrupt (Model/Interrupt.v), the
    statistics [objective] that is only printed.  [decay_exponent] is a natural number.  X and Y
    have the same length: the training set is a list of pairs.  [shuf it] is the reordering
    sklearn.utils.shuffle makes in iteration [it]; the identity if shuffle=False.  Parallel
    maps find_constraint over a batch, whatever n_jobs.  The model object is already
    initialised. *)
From Coq Require Import ZArith.
From Verif Require Export Model.Learner Model.NSlack Model.OneSlack.

Inductive averaging := AvgNone | AvgLinear | AvgSquared.
(** [sg_lr]: None is 'auto'; [sg_cpus]: cpu_count() *)
Record sg_params := SGParams {
  sg_C : Qc; sg_max_iter : nat; sg_momentum : Qc; sg_lr : option Qc; sg_jobs : Z; sg_cpus : nat;
  sg_decay : nat; sg_t0 : Qc; sg_batch : option Z; sg_avg : averaging; sg_break : bool }.

(** local variable w, attributes w, grad_old, t *)
Record sg_state := SGState { sg_w : list Qc; sg_self : list Qc; sg_grad : list Qc; sg_t : nat }.

(** [effective_lr], lines 135-140 *)
Definition sg_rate (prm : sg_params) (lr : Qc) (t : nat) : res Qc :=
  if (sg_decay prm =? 0)%nat then Ok lr
  else let! _ := ensure (negb (Qceqb (ofN t + sg_t0 prm) 0)) ZeroDivisionError in
       Ok (lr / Qcpower (ofN t + sg_t0 prm) (sg_decay prm)).
(** lines 143-150 *)
Definition sg_rho (a : averaging) (t : nat) : Qc :=
  match a with
  | AvgLinear => (1 + 1) / (ofN t + (1 + 1))
  | AvgSquared => ofN 6 * (ofN t + 1) / ((ofN t + (1 + 1)) * ((1 + 1) * ofN t + ofN 3))
  | AvgNone => 1
  end.
Definition sg_expose (a : averaging) (t : nat) (self w : list Qc) : list Qc :=
  match a with
  | AvgNone => w
  | _ => vadd (vscale (1 - sg_rho a t) self) (vscale (sg_rho a t) w)
  end.
(** [_solve_subgradient], lines 129-152; [n]: n_samples, [lr]: learning_rate_ *)
Definition solve_subgradient (prm : sg_params) (n : nat) (lr : Qc) (dj : list Qc) (st : sg_state) : res sg_state :=
  (* w / 0.0 is not finite *)
  let! _ := ensure (negb (Qceqb (sg_C prm * ofN n) 0)) NonFinite in
  let! grad := np_vsub dj (vscale (/ (sg_C prm * ofN n)) (sg_w st)) in
  let! grad_old := np_vadd (vscale (1 - sg_momentum prm) grad) (vscale (sg_momentum prm) (sg_grad st)) in
  let! rate := sg_rate prm lr (sg_t st) in
  let! w := np_vadd (sg_w st) (vscale rate grad_old) in
  Ok (SGState w (sg_expose (sg_avg prm) (sg_t st) (sg_self st) w) grad_old (S (sg_t st))).

(** [_sequential_learning], lines 280-312: online learning *)
Definition sg_online_step {X Y} (prm : sg_params) (m : smodel X Y) (n : nat) (lr : Qc) (p : X * Y) (st : sg_state)
  : res (sg_state * bool) :=
  let! c := find_constraint m (fst p) (snd p) (sg_w st) None true in
  let '(_, delta, slack, _) := c in
  let! st := solve_subgradient prm n lr delta st in
  Ok (st, Qcltb 0 slack).
Fixpoint sg_online {X Y} (prm : sg_params) (m : smodel X Y) (n : nat) (lr : Qc) (S : list (X * Y)) (st : sg_state) (pos : Z)
  : res (sg_state * Z) :=
  match S with
  | [] => Ok (st, pos)
  | p :: r => let! q := sg_online_step prm m n lr p st in
              sg_online prm m n lr r (fst q) (if snd q then pos + 1 else pos)%Z
  end.
(** ... mini batch learning; [violation] is only printed *)
Definition sg_mini_step {X Y} (prm : sg_params) (bm : bmodel X Y) (n : nat) (lr : Qc) (B : list (X * Y)) (st : sg_state)
  : res sg_state :=
  let Xb := map fst B in let Yb := map snd B in
  let! Yh := bm_laug bm Xb Yb (sg_w st) in
  let! f := bm_joint bm Xb Yb None in
  let! fh := bm_joint bm Xb Yh None in
  let! delta := np_vsub f fh in
  let! _ := bm_loss bm Yb Yh in
  let! _ := np_dot (sg_w st) delta in
  let! _ := ensure (negb (length B =? 0)%nat) NonFinite in
  solve_subgradient prm n lr (vscale (/ ofN (length B)) delta) st.
Fixpoint sg_mini {X Y} (prm : sg_params) (bm : bmodel X Y) (n : nat) (lr : Qc) (b : Z) (Bs : list (list (X * Y)))
         (st : sg_state) (pos : Z) : res (sg_state * Z) :=
  match Bs with
  | [] => Ok (st, pos)
  | B :: r => let! st := sg_mini_step prm bm n lr B st in sg_mini prm bm n lr b r st (pos + b)%Z
  end.
(** int(np.ceil(float(n) / b)) batches *)
Definition sg_slices (n : nat) (b : Z) : res (list (nat * nat)) :=
  if (b =? 0)%Z then Err ZeroDivisionError
  else if (b <? 0)%Z then Err ValueError
  else gen_even_slices n ((n + Z.to_nat b - 1) / Z.to_nat b).
Definition sg_sequential {X Y} (prm : sg_params) (bm : bmodel X Y) (lr : Qc) (S : list (X * Y)) (st : sg_state)
  : res (sg_state * Z) :=
  let n := length S in
  match sg_batch prm with
  | None => sg_online prm (bm_s bm) n lr S st 0
  | Some b =>
      if (b =? 1)%Z then sg_online prm (bm_s bm) n lr S st 0
      else let! Bs := (if (b =? -1)%Z then Ok [S]
                       else let! sl := sg_slices n b in Ok (map (fun s => slice (fst s) (snd s) S) sl)) in
           sg_mini prm bm n lr b Bs st 0
  end.
(** [_parallel_learning], lines 245-278 *)
Fixpoint sg_gather {Y} (cs : list (Y * list Qc * Qc * Qc)) (dj : list Qc) (pos : nat) : res (list Qc * nat) :=
  match cs with
  | [] => Ok (dj, pos)
  | (_, delta, slack, _) :: r =>
      if Qcltb 0 slack then let! dj := np_vadd dj delta in sg_gather r dj (S pos)
      else sg_gather r dj pos
  end.
Definition sg_par_step {X Y} (prm : sg_params) (m : smodel X Y) (n : nat) (lr : Qc) (B : list (X * Y)) (st : sg_state)
  : res (sg_state * nat) :=
  let! cs := mapM (fun p => find_constraint m (fst p) (snd p) (sg_w st) None true) B in
  let! q := sg_gather cs (vzero (sm_size m)) 0 in
  let! st := solve_subgradient prm n lr (fst q) st in
  Ok (st, snd q).
Fixpoint sg_par {X Y} (prm : sg_params) (m : smodel X Y) (n : nat) (lr : Qc) (Bs : list (list (X * Y)))
         (st : sg_state) (pos : Z) : res (sg_state * Z) :=
  match Bs with
  | [] => Ok (st, pos)
  | B :: r => let! q := sg_par_step prm m n lr B st in
              sg_par prm m n lr r (fst q) (pos + Z.of_nat (snd q))%Z
  end.
Definition sg_parallel {X Y} (prm : sg_params) (m : smodel X Y) (lr : Qc) (S : list (X * Y)) (st : sg_state)
  : res (sg_state * Z) :=
  let! _ := ensure (match sg_batch prm with None => true | Some _ => false end) ValueError in
  let n := length S in
  let jobs := if (sg_jobs prm =? -1)%Z then Z.of_nat (sg_cpus prm) else sg_jobs prm in
  let! sl := sg_slices n jobs in
  sg_par prm m n lr (map (fun s => slice (fst s) (snd s) S) sl) st 0.
Definition sg_epoch {X Y} (prm : sg_params) (bm : bmodel X Y) (lr : Qc) (S : list (X * Y)) (st : sg_state)
  : res (sg_state * Z) :=
  if (sg_jobs prm =? 1)%Z then sg_sequential prm bm lr S st else sg_parallel prm (bm_s bm) lr S st.

(** [fit], lines 154-243.  Result of the loop: state, objective_curve_, training set in its
    last order. *)
Definition sg_objective {X Y} (prm : sg_params) (bm : bmodel X Y) (S : list (X * Y)) (w : list Qc) : res Qc :=
  objective_primal (bm_s bm) w (map fst S) (map snd S) (sg_C prm) NSlack.
Fixpoint sg_loop {X Y} (prm : sg_params) (bm : bmodel X Y) (lr : Qc) (shuf : nat -> list (X * Y) -> list (X * Y))
         (k it : nat) (S : list (X * Y)) (st : sg_state) (curve : list Qc) : res (sg_state * list Qc * list (X * Y)) :=
  match k with
  | O => Ok (st, curve, S)
  | Datatypes.S k' =>
      let S := shuf it S in
      let! q := sg_epoch prm bm lr S st in
      let st := fst q in
      if ((snd q =? 0)%Z && sg_break prm)%bool then Ok (st, curve, S)
      else let! o := sg_objective prm bm S (sg_self st) in
           sg_loop prm bm lr shuf k' (Datatypes.S it) S st (curve ++ [o])
  end.
(** attributes of a learner: t, and w, learning_rate_, objective_curve_ once it was fitted *)
Record sg_learner := SGLearner { sl_t : nat; sl_fitted : option (list Qc * Qc * list Qc) }.
Definition sg_new : sg_learner := SGLearner 0 None.
Definition sg_fit {X Y} (prm : sg_params) (bm : bmodel X Y) (shuf : nat -> list (X * Y) -> list (X * Y))
           (warm : bool) (S : list (X * Y)) (L : sg_learner) : res sg_learner :=
  let d := sm_size (bm_s bm) in
  let w := match sl_fitted L with Some (w, _, _) => w | None => vzero d end in
  let! lc := (if warm then match sl_fitted L with
                           | Some (_, lr, c) => Ok (lr, c)
                           | None => Err AttributeError  (* timestamps_ *)
                           end
              else Ok (match sg_lr prm with None => sg_C prm * ofN (length S) | Some r => r end, [])) in
  let! q := sg_loop prm bm (fst lc) shuf (sg_max_iter prm) 0 S (SGState w w (vzero d) (sl_t L)) (snd lc) in
  let '(st, curve, S') := q in
  let! o := sg_objective prm bm S' (sg_self st) in
  Ok (SGLearner (sg_t st) (Some (sg_self st, fst lc, curve ++ [o]))).

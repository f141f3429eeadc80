(** Model of pystruct/learners/structured_perceptron.py (StructuredPerceptron).

    Not modelled: printing.  decay_exponent is an integer.  X and Y have the same length: the
    training set is a list of pairs.  Parallel maps inference over the samples, whatever n_jobs.
    The model object is already initialised.  An interruption is a method of the model raising
    KeyboardInterrupt; one arriving between two statements of fit itself is not modelled. *)
From Coq Require Import ZArith.
From Verif Require Export Model.Learner.

(** [average]: False, True or an integer *)
Inductive pc_average := NoAverage | AllEpochs | FromEpoch (k : Z).
Record pc_params := PCParams {
  pc_max_iter : nat; pc_batch : bool; pc_decay : Z; pc_t0 : Qc; pc_avg : pc_average }.

(** attribute w, local variables w_bar, n_obs, losses *)
Record pc_state := PCState { pc_w : list Qc; pc_bar : list Qc; pc_obs : nat; pc_losses : Qc }.

(** [effective_lr], lines 122-123 *)
Definition pc_rate (prm : pc_params) (it : nat) : res Qc :=
  let b := ofN it + pc_t0 prm in
  if (0 <=? pc_decay prm)%Z then Ok (Qcpower b (Z.to_nat (pc_decay prm)))
  else let! _ := ensure (negb (Qceqb b 0)) ZeroDivisionError in
       Ok (/ Qcpower b (Z.to_nat (- pc_decay prm))).
(** lines 132-136, 145-149: loss of one sample and new weights *)
Definition pc_update {X Y} (m : smodel X Y) (lr : Qc) (p : X * Y) (yh : Y) (w : list Qc) : res (Qc * list Qc) :=
  let! l := sm_loss m (snd p) yh in
  if Qceqb l 0 then Ok (l, w)
  else let! f := sm_joint m (fst p) (snd p) None in
       let! fh := sm_joint m (fst p) yh None in
       let! d := np_vsub f fh in
       let! w := np_vadd w (vscale lr d) in
       Ok (l, w).
(** lines 137-140, 150-154: [on] is average is not False and iteration >= average *)
Definition pc_observe (on : bool) (st : pc_state) : pc_state :=
  if on then let n := S (pc_obs st) in
             PCState (pc_w st) (vadd (vscale (1 - 1 / ofN n) (pc_bar st)) (vscale (1 / ofN n) (pc_w st))) n (pc_losses st)
  else st.

(** The loops keep the state reached when an exception is raised: fit has a finally clause. *)
(** lines 142-154: online learning *)
Fixpoint pc_online {X Y} (m : smodel X Y) (lr : Qc) (on : bool) (S : list (X * Y)) (st : pc_state)
  : pc_state * option exn :=
  match S with
  | [] => (st, None)
  | p :: r =>
      match (let! yh := sm_inference m (fst p) (pc_w st) in pc_update m lr p yh (pc_w st)) with
      | Err e => (st, Some e)
      | Ok (l, w) => pc_online m lr on r (pc_observe on (PCState w (pc_bar st) (pc_obs st) (pc_losses st + l)))
      end
  end.
(** lines 128-140: batch learning *)
Fixpoint pc_updates {X Y} (m : smodel X Y) (lr : Qc) (S : list (X * Y * Y)) (st : pc_state)
  : pc_state * option exn :=
  match S with
  | [] => (st, None)
  | (p, yh) :: r =>
      match pc_update m lr p yh (pc_w st) with
      | Err e => (st, Some e)
      | Ok (l, w) => pc_updates m lr r (PCState w (pc_bar st) (pc_obs st) (pc_losses st + l))
      end
  end.
Definition pc_batch_epoch {X Y} (m : smodel X Y) (lr : Qc) (on : bool) (S : list (X * Y)) (st : pc_state)
  : pc_state * option exn :=
  match mapM (fun p => sm_inference m (fst p) (pc_w st)) S with
  | Err e => (st, Some e)
  | Ok Yh =>
      let q := pc_updates m lr (combine S Yh) st in
      match snd q with
      | Some e => q
      | None => (pc_observe on (fst q), None)
      end
  end.

(** average is not False; iteration >= average *)
Definition pc_averaging (a : pc_average) : bool := match a with NoAverage => false | _ => true end.
Definition pc_from (a : pc_average) : Z := match a with FromEpoch k => k | _ => 0 end.
Definition pc_on (a : pc_average) (it : nat) : bool := (pc_averaging a && (pc_from a <=? Z.of_nat it)%Z)%bool.
(** lines 117-124 *)
Definition pc_begin (a : pc_average) (st : pc_state) : pc_state :=
  let '(bar, n) := match a with
                   | FromEpoch k => if (k =? -1)%Z then (vzero (length (pc_bar st)), O) else (pc_bar st, pc_obs st)
                   | _ => (pc_bar st, pc_obs st)
                   end in
  PCState (pc_w st) bar n 0.
(** lines 115-163, the try block.  [ml] is max_losses.  An entry of loss_curve_ is None if it is
    not finite (max_losses = 0); comparing such an entry with 0 gives False. *)
Fixpoint pc_loop {X Y} (prm : pc_params) (m : smodel X Y) (S : list (X * Y)) (ml : Qc) (k it : nat)
         (st : pc_state) (curve : list (option Qc)) : pc_state * list (option Qc) * option exn :=
  match k with
  | O => (st, curve, None)
  | Datatypes.S k' =>
      let st := pc_begin (pc_avg prm) st in
      match pc_rate prm it with
      | Err e => (st, curve, Some e)
      | Ok lr =>
          let on := pc_on (pc_avg prm) it in
          let q := if pc_batch prm then pc_batch_epoch m lr on S st else pc_online m lr on S st in
          match snd q with
          | Some e => (fst q, curve, Some e)
          | None =>
              let st := fst q in
              let entry := if Qceqb ml 0 then None else Some (pc_losses st / ml) in
              let stop := match entry with Some v => Qceqb v 0 | None => false end in
              if stop then (st, curve ++ [entry], None)
              else pc_loop prm m S ml k' (Datatypes.S it) st (curve ++ [entry])
          end
      end
  end.

(** attributes after fit: w, loss_curve_ (absent before it is first set), average *)
Record pc_learner := PCLearner { pl_w : list Qc; pl_curve : option (list (option Qc)); pl_avg : pc_average }.
(** [fit], lines 80-170: the learner and the exception leaving fit, if any.  [old] is the
    loss_curve_ of an earlier fit, [mloss] is model.max_loss. *)
Definition pc_fit {X Y} (prm : pc_params) (m : smodel X Y) (mloss : Y -> res Qc) (old : option (list (option Qc)))
           (S : list (X * Y)) : pc_learner * option exn :=
  let w := vzero (sm_size m) in
  let too_low := match pc_avg prm with FromEpoch k => (k <? -1)%Z | _ => false end in
  (* raise NotImplemented(...): NotImplemented is not callable *)
  if too_low then (PCLearner w old (pc_avg prm), Some TypeError)
  else
    let a := match pc_avg prm with AllEpochs => FromEpoch 0 | a => a end in
    match mapM (fun p => mloss (snd p)) S with
    | Err e => (PCLearner w (Some []) a, Some e)
    | Ok mls =>
        let '(st, curve, e) := pc_loop (PCParams (pc_max_iter prm) (pc_batch prm) (pc_decay prm) (pc_t0 prm) a)
                                       m S (lsum mls) (pc_max_iter prm) 0 (PCState w w 0 0) [] in
        (PCLearner (if pc_averaging a then pc_bar st else pc_w st) (Some curve) a,
         match e with Some KeyboardInterrupt => None | e => e end)
    end.

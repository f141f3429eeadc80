(** Specification vocabulary for the structured perceptron. *)
From Coq Require Import ZArith.
From Verif Require Export Spec.TaskSpec Model.Perceptron.

(** On these samples the model object computes the joint features (of [d] entries) and losses of
    the task for every allowed output; the true output is allowed and costs nothing. *)
Definition computes {X Y} (m : smodel X Y) (T : task X Y) (d : nat) (S : list (X * Y)) : Prop :=
  forall p, In p S -> t_label T (fst p) (snd p) /\ t_loss T (snd p) (snd p) = 0 /\
    forall y', t_label T (fst p) y' -> length (t_feat T (fst p) y') = d /\ 0 <= t_loss T (snd p) y' /\
      sm_joint m (fst p) y' None = Ok (t_feat T (fst p) y') /\ sm_loss m (snd p) y' = Ok (t_loss T (snd p) y').
(** inference predicts an allowed output or raises *)
Definition infers {X Y} (m : smodel X Y) (T : task X Y) (d : nat) (S : list (X * Y)) : Prop :=
  forall p w yh, In p S -> length w = d -> sm_inference m (fst p) w = Ok yh -> t_label T (fst p) yh.
(** ... always predicts a best one *)
Definition infers_exactly {X Y} (m : smodel X Y) (T : task X Y) (d : nat) (S : list (X * Y)) : Prop :=
  forall p w, In p S -> length w = d -> exact_inference m T w (fst p).

(** One presentation of a sample: the sample, the prediction, the weights afterwards. *)
Record visit (X Y : Type) := Visit { v_sample : X * Y; v_pred : Y; v_after : list Qc }.
Arguments Visit {X Y}. Arguments v_sample {X Y}. Arguments v_pred {X Y}. Arguments v_after {X Y}.
Definition v_loss {X Y} (T : task X Y) (v : visit X Y) : Qc := t_loss T (snd (v_sample v)) (v_pred v).
Definition v_diff {X Y} (T : task X Y) (v : visit X Y) : list Qc :=
  vsub (t_feat T (fst (v_sample v)) (snd (v_sample v))) (t_feat T (fst (v_sample v)) (v_pred v)).
(** Presentations starting with weights [w]: predictions with the current weights, or with those
    at the beginning of the epoch ([w0]) in batch mode; a mistake moves the weights by [lr] times
    the feature difference. *)
Fixpoint presents {X Y} (m : smodel X Y) (T : task X Y) (batch : bool) (lr : Qc) (w0 w : list Qc) (V : list (visit X Y)) : Prop :=
  match V with
  | [] => True
  | v :: r =>
      sm_inference m (fst (v_sample v)) (if batch then w0 else w) = Ok (v_pred v) /\
      (v_loss T v = 0 -> v_after v = w) /\
      (v_loss T v <> 0 -> v_after v = vadd w (vscale lr (v_diff T v))) /\
      presents m T batch lr w0 (v_after v) r
  end.
(** an epoch: weights at its beginning, presentations *)
Notation pc_epoch X Y := (list Qc * list (visit X Y))%type (only parsing).
Definition finish {X Y} (e : pc_epoch X Y) : list Qc := last (map v_after (snd e)) (fst e).
(** (it + t0) ** decay_exponent *)
Definition pc_lr (prm : pc_params) (it : nat) : Qc :=
  if (0 <=? pc_decay prm)%Z then Qcpower (ofN it + pc_t0 prm) (Z.to_nat (pc_decay prm))
  else / Qcpower (ofN it + pc_t0 prm) (Z.to_nat (- pc_decay prm)).
(** complete epochs, the first one having number [it] and starting with weights [w] *)
Fixpoint epochs {X Y} (prm : pc_params) (m : smodel X Y) (T : task X Y) (S : list (X * Y)) (it : nat) (w : list Qc)
         (Es : list (pc_epoch X Y)) : Prop :=
  match Es with
  | [] => True
  | e :: r => fst e = w /\ map v_sample (snd e) = S /\ presents m T (pc_batch prm) (pc_lr prm it) w w (snd e) /\
              epochs prm m T S (Datatypes.S it) (finish e) r
  end.
Definition finish_all {X Y} (w : list Qc) (Es : list (pc_epoch X Y)) : list Qc := last (map finish Es) w.
(** an epoch broken off because inference raised [x] *)
Definition broken {X Y} (prm : pc_params) (m : smodel X Y) (T : task X Y) (S : list (X * Y)) (it : nat) (w : list Qc)
           (e : pc_epoch X Y) (x : exn) : Prop :=
  fst e = w /\ presents m T (pc_batch prm) (pc_lr prm it) w w (snd e) /\
  if pc_batch prm then snd e = [] /\ exists p, In p S /\ sm_inference m (fst p) w = Err x
  else exists p r, S = map v_sample (snd e) ++ p :: r /\ sm_inference m (fst p) (finish e) = Err x.
Definition mistakes {X Y} (T : task X Y) (V : list (visit X Y)) : nat :=
  length (filter (fun v => negb (Qceqb (v_loss T v) 0)) V).
Definition epoch_loss {X Y} (T : task X Y) (e : pc_epoch X Y) : Qc := lsum (map (v_loss T) (snd e)).
(** the entry of loss_curve_; None: not finite *)
Definition entry {X Y} (T : task X Y) (ml : Qc) (e : pc_epoch X Y) : option Qc :=
  if Qceqb ml 0 then None else Some (epoch_loss T e / ml).
Definition zero_entry (o : option Qc) : Prop := match o with Some v => v = 0 | None => False end.

(** why the loop ended: all iterations done, or zero loss in the last one *)
Definition ends {X Y} (T : task X Y) (k : nat) (Es : list (pc_epoch X Y)) (ml : Qc) : Prop :=
  length Es = k \/ exists Es' e, Es = Es' ++ [e] /\ zero_entry (entry T ml e).
Definition goes_on {X Y} (T : task X Y) (ml : Qc) (Es : list (pc_epoch X Y)) : Prop :=
  Forall (fun e => ~ zero_entry (entry T ml e)) Es.
(** the exception leaving fit, if [x] was raised inside the loop *)
Definition leaving (x : option exn) : option exn := match x with Some KeyboardInterrupt => None | x => x end.

(** Weights that enter the average: after every presentation (online) or every complete epoch
    (batch), from epoch [k] on; [k = -1]: of the last epoch begun only. *)
Definition seen {X Y} (batch complete : bool) (e : pc_epoch X Y) : list (list Qc) :=
  if batch then if complete then [finish e] else [] else map v_after (snd e).
Definition observed {X Y} (batch : bool) (k : Z) (Es : list (pc_epoch X Y)) (P : option (pc_epoch X Y)) : list (list Qc) :=
  if (k =? -1)%Z then
    match P with
    | Some e => seen batch false e
    | None => match rev Es with e :: _ => seen batch true e | [] => [] end
    end
  else concat (map (seen batch true) (skipn (Z.to_nat k) Es)) ++
       match P with
       | Some e => if (k <=? Z.of_nat (length Es))%Z then seen batch false e else []
       | None => []
       end.
(** [v] is the arithmetic mean of [vs]; zero if there are none *)
Definition is_mean (d : nat) (vs : list (list Qc)) (v : list Qc) : Prop :=
  length v = d /\ (vs = [] -> v = vzero d) /\
  forall i, ofN (length vs) * get1 v i = lsum (map (fun u => get1 u i) vs).
(** average=True means 0; the weights exposed in the end *)
Definition pc_first (a : pc_average) : option Z :=
  match a with NoAverage => None | AllEpochs => Some 0%Z | FromEpoch k => Some k end.
Definition exposed {X Y} (d : nat) (batch : bool) (a : pc_average) (Es : list (pc_epoch X Y)) (P : option (pc_epoch X Y)) (w : list Qc) : Prop :=
  match pc_first a with
  | None => w = match P with Some e => finish e | None => finish_all (vzero d) Es end
  | Some k => is_mean d (observed batch k Es P) w
  end.
(** learning rates are defined *)
Definition rates_ok (prm : pc_params) : Prop := (0 <= pc_decay prm)%Z \/ 0 < pc_t0 prm.
Definition average_ok (prm : pc_params) : Prop := match pc_first (pc_avg prm) with Some k => (-1 <= k)%Z | None => True end.

(** [u] scores the true output at least [g] above every wrong one *)
Definition separates {X Y} (T : task X Y) (u : list Qc) (g : Qc) (p : X * Y) : Prop :=
  forall y', t_label T (fst p) y' -> t_loss T (snd p) y' <> 0 ->
    g <= dot u (vsub (t_feat T (fst p) (snd p)) (t_feat T (fst p) y')).
(** no wrong output is further than sqrt R2 from the true one *)
Definition wrong_within {X Y} (T : task X Y) (R2 : Qc) (p : X * Y) : Prop :=
  forall y', t_label T (fst p) y' -> t_loss T (snd p) y' <> 0 ->
    normsq (vsub (t_feat T (fst p) (snd p)) (t_feat T (fst p) y')) <= R2.
(** number of mistakes; their cost in a bound on the norm of the weights *)
Definition all_mistakes {X Y} (T : task X Y) (Es : list (pc_epoch X Y)) : nat := list_sum (map (fun e => mistakes T (snd e)) Es).
Fixpoint moved {X Y} (prm : pc_params) (T : task X Y) (it : nat) (Es : list (pc_epoch X Y)) : Qc :=
  match Es with
  | [] => 0
  | e :: r => pc_lr prm it * ofN (mistakes T (snd e)) + moved prm T (Datatypes.S it) r
  end.
Definition mistake_cost (batch : bool) (k : nat) : Qc := if batch then ofN k * ofN k else ofN k.
Fixpoint spent {X Y} (prm : pc_params) (T : task X Y) (it : nat) (Es : list (pc_epoch X Y)) : Qc :=
  match Es with
  | [] => 0
  | e :: r => pc_lr prm it * pc_lr prm it * mistake_cost (pc_batch prm) (mistakes T (snd e)) + spent prm T (Datatypes.S it) r
  end.
(** every training sample is predicted without loss *)
Definition fits {X Y} (m : smodel X Y) (T : task X Y) (S : list (X * Y)) (w : list Qc) : Prop :=
  forall p, In p S -> exists yh, sm_inference m (fst p) w = Ok yh /\ t_loss T (snd p) yh = 0.
(** inference always predicts an allowed output *)
Definition answers {X Y} (m : smodel X Y) (T : task X Y) (d : nat) (S : list (X * Y)) : Prop :=
  forall p w, In p S -> length w = d -> exists yh, sm_inference m (fst p) w = Ok yh /\ t_label T (fst p) yh.

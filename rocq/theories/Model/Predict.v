(** pystruct/learners/ssvm.py: BaseSSVM.predict, score, _compute_training_loss; and the
    function [inference] of pystruct/utils/inference.py.

    joblib's Parallel is modelled by the order in which the tasks finish: each finished task
    puts its result into its own slot, the first exception to occur ends the call, and the result
    is the list of slots.  Counters (inference_calls) and printing are not modelled. *)
From Coq Require Import ZArith.
From Verif Require Export Model.Learner Model.BatchInstances Model.Loss.

(** What predict and score use of a model.  [pm_inf_c x w c] is
    inference(x, w, constraints=c), which is a TypeError when the method has no such keyword;
    [pm_batch] is None when there is no attribute batch_inference. *)
Record pmodel (X Y K : Type) := PModel {
  pm_inf : X -> list Qc -> res Y;
  pm_inf_c : X -> list Qc -> K -> res Y;
  pm_batch : option (list X -> list Qc -> res (list Y));
  pm_batch_c : list X -> list Qc -> list K -> res (list Y);
  pm_loss : Y -> Y -> res Qc;
  pm_max_loss : Y -> res Qc;
  pm_batch_loss : option (list Y -> list Y -> res (list Qc)) }.
Arguments PModel {X Y K}. Arguments pm_inf {X Y K}. Arguments pm_inf_c {X Y K}.
Arguments pm_batch {X Y K}. Arguments pm_batch_c {X Y K}. Arguments pm_loss {X Y K}.
Arguments pm_max_loss {X Y K}. Arguments pm_batch_loss {X Y K}.

Section Parallel.
  Context {A B : Type}.
  Fixpoint set_slot (i : nat) (b : B) (s : list (option B)) : list (option B) :=
    match s, i with
    | [], _ => []
    | _ :: r, O => Some b :: r
    | a :: r, S i' => a :: set_slot i' b r
    end.
  Fixpoint run_tasks (order : list nat) (f : A -> res B) (l : list A) (s : list (option B)) : res (list (option B)) :=
    match order with
    | [] => Ok s
    | i :: r =>
        match nth_error l i with
        | None => run_tasks r f l s
        | Some a => let! b := f a in run_tasks r f l (set_slot i b s)
        end
    end.
  (** a slot that was never filled would block the caller for ever *)
  Definition slot (o : option B) : res B := match o with Some b => Ok b | None => Err OutOfFuel end.
  Definition parallel (n_jobs : Z) (order : list nat) (f : A -> res B) (l : list A) : res (list B) :=
    let! _ := ensure (negb (n_jobs =? 0)%Z) ValueError in
    let! s := run_tasks order f l (repeat None (length l)) in
    mapM slot s.
End Parallel.

Section Predict.
  Context {X Y K : Type}.
  Variable truthy : K -> bool.                     (* bool(c) for one entry of constraints *)

  (** utils/inference.py 103-107 *)
  Definition inference_with (m : pmodel X Y K) (w : list Qc) (p : X * K) : res Y :=
    if truthy (snd p) then pm_inf_c m (fst p) w (snd p) else pm_inf m (fst p) w.

  (** [predict], lines 21-57 *)
  Definition predict (m : pmodel X Y K) (n_jobs : Z) (order : list nat) (w : list Qc) (Xs : list X)
             (constraints : option (list K)) : res (list Y) :=
    let cs := match constraints with Some (c :: r) => Some (c :: r) | _ => None end in
    if negb (n_jobs =? 1)%Z then
      match cs with
      | Some l => parallel n_jobs order (inference_with m w) (combine Xs l)
      | None => parallel n_jobs order (fun x => pm_inf m x w) Xs
      end
    else
      match pm_batch m with
      | Some batch => match cs with Some l => pm_batch_c m Xs w l | None => batch Xs w end
      | None =>
          match cs with
          | Some l => mapM (fun p => pm_inf_c m (fst p) w (snd p)) (combine Xs l)
          | None => mapM (fun x => pm_inf m x w) Xs
          end
      end.

  (** [score], lines 59-84; a vanishing denominator gives nan or -inf *)
  Definition pscore (m : pmodel X Y K) (n_jobs : Z) (order : list nat) (w : list Qc) (Xs : list X) (Ys : list Y) : res Qc :=
    let! P := predict m n_jobs order w Xs None in
    let! losses := (match pm_batch_loss m with
                    | Some f => f Ys P
                    | None => mapM (fun p => pm_loss m (fst p) (snd p)) (combine Ys P)
                    end) in
    let! mls := mapM (pm_max_loss m) Ys in
    if Qceqb (lsum mls) 0 then Err NonFinite else Ok (1 - lsum losses / lsum mls).

  (** [_compute_training_loss], lines 86-95; [curve] is loss_curve_ if the attribute exists *)
  Definition compute_training_loss (m : pmodel X Y K) (n_jobs : Z) (order : list nat) (every : Z) (w : list Qc)
             (Xs : list X) (Ys : list Y) (iteration : Z) (curve : option (list Qc)) : res (option (list Qc)) :=
    if negb (every =? 0)%Z && (iteration mod every =? 0)%Z then
      let l := match curve with Some l => l | None => [] end in
      let! s := pscore m n_jobs order w Xs Ys in
      Ok (Some (l ++ [1 - s]))
    else Ok curve.
  (** the calls of a fit: the weights at iterations start, start + 1, ... *)
  Fixpoint training_losses (m : pmodel X Y K) (n_jobs : Z) (order : list nat) (every : Z) (ws : list (list Qc))
           (Xs : list X) (Ys : list Y) (iteration : Z) (curve : option (list Qc)) : res (option (list Qc)) :=
    match ws with
    | [] => Ok curve
    | w :: r =>
        let! c := compute_training_loss m n_jobs order every w Xs Ys iteration curve in
        training_losses m n_jobs order every r Xs Ys (iteration + 1) c
    end.

  (** models that inherit batch_inference and batch_loss from StructuredModel, base.py 52-58 and
      68-70; the keyword relaxed is not modelled *)
  Definition with_defaults (inf : X -> list Qc -> res Y) (inf_c : X -> list Qc -> K -> res Y)
             (loss : Y -> Y -> res Qc) (max_loss : Y -> res Qc) : pmodel X Y K :=
    PModel inf inf_c
      (Some (fun Xs w => mapM (fun x => inf x w) Xs))
      (fun Xs w cs => match cs with
                      | [] => mapM (fun x => inf x w) Xs
                      | _ => mapM (fun p => inf_c (fst p) w (snd p)) (combine Xs cs)
                      end)
      loss max_loss
      (Some (fun Ys P => mapM (fun p => loss (fst p) (snd p)) (combine Ys P))).
End Predict.

(** MultiClassClf: batch_inference and inference have no keyword constraints *)
Definition mc_pmodel {K} (m : mc_clf) : pmodel (list Qc) nat K :=
  PModel (mc_inference m) (fun _ _ _ => Err TypeError)
    (Some (fun Xs w => mc_batch_inference m (rows_mat (mc_features m) Xs) w))
    (fun _ _ _ => Err TypeError)
    (mc_loss m) (fun y => index (mc_cw m) y)
    (Some (mc_batch_loss m)).
(** BinaryClf; max_loss is y.size, 1 for a numpy number *)
Definition bc_pmodel {K} (F : nat) : pmodel (list Qc) Z K :=
  PModel bc_inference (fun _ _ _ => Err TypeError)
    (Some (fun Xs w => bc_batch_inference (rows_mat F Xs) w))
    (fun _ _ _ => Err TypeError)
    (fun y y' => Ok (bc_loss y y')) (fun _ => Ok 1)
    (Some bc_batch_loss).
(** GraphCRF; [solve_c] stands for inference under a constraint (CRF.inference, crf.py 162-178) *)
Definition g_pmodel {K} (solve : solver) (inf_c : graph_x -> list Qc -> K -> res (list nat)) (g : graph_crf) (cw : list Qc) : pmodel graph_x (list nat) K :=
  with_defaults (g_inference solve g) inf_c (loss (Some cw)) (max_loss (Some cw)).
(** ChainCRF with max-product inference *)
Definition chain_pmodel {K} (inf_c : mat -> list Qc -> K -> res (list nat)) (g : graph_crf) (cw : list Qc) : pmodel mat (list nat) K :=
  with_defaults (chain_inference g) inf_c (loss (Some cw)) (max_loss (Some cw)).

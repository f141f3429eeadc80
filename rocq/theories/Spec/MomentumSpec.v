(** Specification vocabulary for subgradient learning with momentum. *)
From Verif Require Export Spec.SubgradientSpec.

(** steps, each with its feature difference and the state it leads to *)
Fixpoint sg_run (prm : sg_params) (n : nat) (lr : Qc) (st : sg_state) (l : list (list Qc * sg_state)) : Prop :=
  match l with
  | [] => True
  | (dj, st') :: r => solve_subgradient prm n lr dj st = Ok st' /\ sg_run prm n lr st' r
  end.
(** the state after the steps [l] *)
Fixpoint run_end (st : sg_state) (l : list (list Qc * sg_state)) : sg_state :=
  match l with
  | [] => st
  | (_, st') :: r => run_end st' r
  end.
(** the directions of the steps without momentum: dj - w / (C n), [w] the weights before the step *)
Fixpoint plain_directions (C : Qc) (n : nat) (st : sg_state) (l : list (list Qc * sg_state)) : list (list Qc) :=
  match l with
  | [] => []
  | (dj, st') :: r => vsub dj (vscale (/ (C * ofN n)) (sg_w st)) :: plain_directions C n st' r
  end.
(** the last number counts fully, the one before it [b] times, the one before that [b * b] times, ... *)
Fixpoint fading_sum (b : Qc) (vs : list Qc) : Qc :=
  match vs with
  | [] => 0
  | v :: r => Qcpower b (length r) * v + fading_sum b r
  end.

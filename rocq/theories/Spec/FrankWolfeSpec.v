(** Specification vocabulary for Frank-Wolfe learning. *)
From Verif Require Export Spec.OneSlackSpec Spec.ClassSpec Model.FrankWolfe.

(** A point of the dual problem restricted to one sample: a convex combination of the pairs
    (C * (psi(x, y) - psi(x, y')), loss(y, y') / n) of allowed outputs y'. *)
Definition block_point {X Y} (T : task X Y) (d : nat) (C : Qc) (n : nat) (p : X * Y) (b : list Qc * Qc) : Prop :=
  exists cs : list (Qc * Y),
    Forall (fun q => 0 <= fst q /\ t_label T (fst p) (snd q)) cs /\ lsum (map fst cs) = 1 /\
    fst b = vsum d (map (fun q => vscale (fst q * C) (vsub (t_feat T (fst p) (snd p)) (t_feat T (fst p) (snd q)))) cs) /\
    snd b = lsum (map (fun q => fst q * (t_loss T (snd p) (snd q) / ofN n)) cs).
(** [w] and [l] are the sums of such blocks over the samples *)
Definition dual_feasible {X Y} (T : task X Y) (d : nat) (C : Qc) (S : list (X * Y)) (w : list Qc) (l : Qc) : Prop :=
  exists bs, Forall2 (block_point T d C (length S)) S bs /\ w = vsum d (map fst bs) /\ l = lsum (map snd bs).
(** dual objective *)
Definition dual_objective (C : Qc) (n : nat) (w : list Qc) (l : Qc) : Qc :=
  C * ofN n * l - normsq w / (1 + 1).

(** The batch methods can be called the way FrankWolfeSSVM does. *)
Definition fw_usable {X Y} (T : task X Y) (d : nat) (Xs : list X) (Ys : list Y) (bm : bmodel X Y) : Prop :=
  batch_ok bm T d Xs Ys /\ sm_rescale (bm_s bm) = false /\ bm_joint bm Xs Ys (Some Ys) = bm_joint bm Xs Ys None.

(** [tr] is an execution: a list of states, each obtained from the previous one by updating
    some sample *)
Fixpoint fw_trace {X Y} (prm : fw_params) (m : smodel X Y) (Xs : list X) (Ys : list Y) (st : fw_state) (tr : list fw_state) : Prop :=
  match tr with
  | [] => True
  | st' :: r => (exists i, fw_step prm m Xs Ys i st = Ok st') /\ fw_trace prm m Xs Ys st' r
  end.
(** j-weighted mean of v_1, ..., v_T (entry [i]): sum j v_j / sum j *)
Definition linear_mean (vs : list Qc) : Qc :=
  lsum (zipw (fun j v => ofN j * v) (seq 1 (length vs)) vs) / lsum (map ofN (seq 1 (length vs))).
Definition ascending (l : list Qc) : Prop := forall i j, (i <= j)%nat -> (j < length l)%nat -> get1 l i <= get1 l j.

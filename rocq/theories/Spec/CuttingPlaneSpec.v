(** Specification vocabulary for the number of rounds of the cutting-plane learners. *)
From Verif Require Export Spec.NSlackSpec Spec.OneSlackSpec.

(** What adding a constraint violated by [eps] more than the others gains in the dual, if the
    multipliers sum to [K] and the constraints have squared norm at most [R2]. *)
Definition gain (K eps R2 : Qc) : Qc := Qcmin (K * eps / (1 + 1)) (eps * eps / (ofN 8 * R2)).

(** working sets that NSlackSSVM can build without pruning: per sample, constraints of
    different allowed outputs with positive loss *)
Definition working_set {X Y} (T : task X Y) (samples : list (X * Y)) (cs : list (list (ncon Y))) : Prop :=
  Forall2 (fun s c => Forall (valid_con T s) c /\ Forall (fun e => 0 < snd e) c /\ NoDup (map (fun e => fst (fst e)) c)) samples cs.
(** the solver answers the quadratic program of every such working set at once, so that the
    regularised second attempt is never needed *)
Definition answers_all {X Y} (solve : qp_solver) (C : Qc) (n : nat) (T : task X Y) (samples : list (X * Y)) : Prop :=
  forall cs p, working_set T samples cs ->
    n_slack_problem C None n (map (fun c => fst (ncon_pair c)) (concat cs)) (map (fun c => snd (ncon_pair c)) (concat cs))
      (map (@length _) cs) 0 = Ok p -> solve p <> None.
(** every entry is at most the next one *)
Fixpoint sorted (l : list Qc) : Prop := match l with a :: ((b :: _) as r) => a <= b /\ sorted r | _ => True end.

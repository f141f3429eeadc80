(** Specification of quadratic programs and of the structured SVM problem over a finite set of
    constraints (psi, loss): slack >= loss - w.psi. *)
From Verif Require Export Model.QP.

Definition qp_feasible (p : qp) (x : list Qc) : Prop :=
  length x = length (qp_q p) /\
  (forall r, (r < mrows (qp_G p))%nat -> dot (nth r (mdat (qp_G p)) []) x <= get1 (qp_h p) r) /\
  (forall r, (r < mrows (qp_A p))%nat -> dot (nth r (mdat (qp_A p)) []) x = get1 (qp_b p) r).
Definition qp_value (p : qp) (x : list Qc) : Qc :=
  dot x (map (fun r => dot r x) (mdat (qp_P p))) / (1 + 1) + dot (qp_q p) x.
(** an answer that is feasible and whose objective value is right *)
Definition qp_sound (solve : qp_solver) : Prop :=
  forall p x v, solve p = Some (x, v) -> qp_feasible p x /\ v = qp_value p x.
(** moreover optimal *)
Definition qp_optimal (p : qp) (x : list Qc) : Prop :=
  qp_feasible p x /\ forall z, qp_feasible p z -> qp_value p x <= qp_value p z.
Definition qp_exact (solve : qp_solver) : Prop :=
  forall p x v, solve p = Some (x, v) -> qp_optimal p x /\ v = qp_value p x.

(** how much weight vector [w] violates constraint (psi, loss) *)
Definition violation (w : list Qc) (c : list Qc * Qc) : Qc := snd c - dot w (fst c).
(** slacks [xi], one per group of constraints, are admissible for [w] *)
Definition covers (w : list Qc) (groups : list (list (list Qc * Qc))) (xi : list Qc) : Prop :=
  Forall2 (fun g x => 0 <= x /\ forall c, In c g -> violation w c <= x) groups xi.
(** the smallest admissible slack of a group *)
Definition group_slack (w : list Qc) (g : list (list Qc * Qc)) : Qc :=
  fold_right Qcmax 0 (map (violation w) g).

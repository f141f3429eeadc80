(** Specification: feasible points of a linear program in equality form, exact solvers. *)
From Verif Require Export Model.LP.

Definition row_value (A : list (Qc * nat * nat)) (x : list Qc) (r : nat) : Qc :=
  lsum (map (fun t => let '(v, i, j) := t in ind (i =? r)%nat * (v * get1 x j)) A).

Definition feasible (pb : lp_problem) (x : list Qc) : Prop :=
  length x = lp_vars pb /\ (forall j, (j < lp_vars pb)%nat -> 0 <= get1 x j) /\
  forall r, (r < lp_rows pb)%nat -> row_value (lp_A pb) x r = get1 (lp_b pb) r.

Definition optimal (pb : lp_problem) (x : list Qc) : Prop :=
  feasible pb x /\ forall x', feasible pb x' -> dot (lp_c pb) x <= dot (lp_c pb) x'.

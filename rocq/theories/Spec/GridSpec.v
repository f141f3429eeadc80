(** Specification of grid neighbourhoods: pixel number [a] of an image of width [w] is at
    row a / w, column a mod w. *)
From Verif Require Export Spec.Energy.

Definition dist (a b : nat) : nat := ((a - b) + (b - a))%nat.
Definition row_dist (w a b : nat) : nat := dist (a / w) (b / w).
Definition col_dist (w a b : nat) : nat := dist (a mod w) (b mod w).
(** horizontally or vertically adjacent *)
Definition adjacent4 (w a b : nat) : Prop := (row_dist w a b + col_dist w a b = 1)%nat.
(** also diagonally *)
Definition adjacent8 (w a b : nat) : Prop := Nat.max (row_dist w a b) (col_dist w a b) = 1%nat.

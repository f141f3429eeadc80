(** Specification: the soft-margin support vector machine with intercept. *)
From Verif Require Export Model.Numpy.

(** [n] points in [d] dimensions (the rows of X) with labels 1 and -1 *)
Definition svm_data (n d : nat) (X : mat) (y : list Qc) : Prop :=
  mat_ok X /\ mrows X = n /\ mcols X = d /\ length y = n /\ forall i, (i < n)%nat -> get1 y i = 1 \/ get1 y i = - (1).
Definition point (X : mat) (i : nat) : list Qc := nth i (mdat X) [].
(** y_i (w.x_i + b) *)
Definition margin (X : mat) (y : list Qc) (w : list Qc) (b : Qc) (i : nat) : Qc := get1 y i * (dot w (point X i) + b).
Definition slack (X : mat) (y : list Qc) (w : list Qc) (b : Qc) (i : nat) : Qc := Qcmax 0 (1 - margin X y w b i).
Definition svm_objective (C : Qc) (X : mat) (y : list Qc) (w : list Qc) (b : Qc) : Qc :=
  normsq w / (1 + 1) + C * sumn (mrows X) (slack X y w b).
Definition svm_minimises (C : Qc) (X : mat) (y : list Qc) (w : list Qc) (b : Qc) : Prop :=
  length w = mcols X /\
  forall w' b', length w' = mcols X -> svm_objective C X y w b <= svm_objective C X y w' b'.
(** the dual problem *)
Definition dual_feasible (C : Qc) (X : mat) (y a : list Qc) : Prop :=
  length a = mrows X /\ (forall i, (i < mrows X)%nat -> 0 <= get1 a i <= C) /\
  sumn (mrows X) (fun i => get1 a i * get1 y i) = 0.
Definition dual_weights (X : mat) (y a : list Qc) : list Qc :=
  tab1 (mcols X) (fun j => sumn (mrows X) (fun i => get1 a i * get1 y i * mget X i j)).
Definition dual_objective (X : mat) (y a : list Qc) : Qc :=
  sumn (mrows X) (get1 a) - normsq (dual_weights X y a) / (1 + 1).

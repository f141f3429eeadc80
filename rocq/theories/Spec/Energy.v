(** Specification: the score of a labelling of a pairwise graphical model.
    Written without reference to the model of the code. *)
From Verif Require Export Base.Sums.

(** [U i s]: score of giving label [s] to node [i]; [P e s t]: score of giving labels
    [s], [t] to the end points of edge number [e]; [y i]: label of node [i]. *)
Definition score (n : nat) (edges : list (nat * nat)) (U : nat -> nat -> Qc)
           (P : nat -> nat -> nat -> Qc) (y : nat -> nat) : Qc :=
  sumn n (fun i => U i (y i)) +
  sumn (length edges) (fun e => P e (y (fst (nth e edges (0, 0)%nat)))
                                  (y (snd (nth e edges (0, 0)%nat)))).

(** [y] is a labelling of [n] nodes with [k] labels. *)
Definition labelling (n k : nat) (y : list nat) : Prop :=
  length y = n /\ Forall (fun s => (s < k)%nat) y.

Definition lab (y : list nat) : nat -> nat := fun i => nth i y O.

(** Edges of a graph with [n] nodes. *)
Definition graph_edges (n : nat) (edges : list (nat * nat)) : Prop :=
  Forall (fun e => (fst e < n)%nat /\ (snd e < n)%nat) edges.

(** [y] has the best score among all labellings of [n] nodes with [k] labels. *)
Definition maximiser (n k : nat) (edges : list (nat * nat)) (U : nat -> nat -> Qc)
           (P : nat -> nat -> nat -> Qc) (y : list nat) : Prop :=
  labelling n k y /\
  forall y', labelling n k y' -> score n edges U P (lab y') <= score n edges U P (lab y).

(** The chain 0 - 1 - ... - (n-1). *)
Definition chain_edges (n : nat) : list (nat * nat) := map (fun i => (i, S i)) (seq 0 (n - 1)).

(** Strict lexicographic order on lists of the same length. *)
Fixpoint lex_lt (a b : list nat) : Prop :=
  match a, b with
  | x :: a', y :: b' => (x < y)%nat \/ (x = y /\ lex_lt a' b')
  | _, _ => False
  end.

(** Specification of the score of a labelling under GraphCRF weights, written from the
    class documentation: first n_states*n_features unary weights (one row of
    n_features weights per state), then the pairwise weights, a full
    n_states x n_states table (directed) or the lower triangle (undirected). *)
From Verif Require Export Spec.Energy.

(** score of state [s] at a node with features [x]: sum over features *)
Definition unary_score (F : nat) (w : list Qc) (x : nat -> Qc) (s : nat) : Qc :=
  sumn F (fun f => get1 w (s * F + f) * x f).

(** position of the unordered pair {s,t} in the lower triangle, row by row *)
Definition tri_index (s t : nat) : nat :=
  let hi := Nat.max s t in let lo := Nat.min s t in ((hi * (hi + 1)) / 2 + lo)%nat.

(** weight of the (ordered or unordered) pair of states [s], [t] *)
Definition pair_score (S F : nat) (directed : bool) (w : list Qc) (s t : nat) : Qc :=
  if directed then get1 w (S * F + (s * S + t)) else get1 w (S * F + tri_index s t).

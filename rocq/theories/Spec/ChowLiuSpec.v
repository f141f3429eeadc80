(** Specification: spanning forests of a weighted graph given by a matrix whose zeros are missing edges. *)
From Verif Require Export Model.ChowLiu Spec.GraphTheory Spec.Energy.

Definition total (M : nat -> nat -> Qc) (T : list (nat * nat)) : Qc := lsum (map (fun e => M (fst e) (snd e)) T).
(** T uses edges that exist, has no cycle, and connects the end points of every edge *)
Definition spanning_forest (n : nat) (M : nat -> nat -> Qc) (T : list (nat * nat)) : Prop :=
  Forall (fun e => (fst e < n)%nat /\ (snd e < n)%nat /\ M (fst e) (snd e) <> 0) T /\ acyclic T /\
  forall a b, (a < n)%nat -> (b < n)%nat -> M a b <> 0 -> connected T a b.
(** what scipy documents: a minimum spanning tree of each component *)
Definition minimum_spanning (mst : spanning_tree) (n : nat) (M : nat -> nat -> Qc) : Prop :=
  spanning_forest n M (mst n M) /\ forall T, spanning_forest n M T -> total M (mst n M) <= total M T.
(** the label tables of a data set: n labels per sample *)
Definition label_rows (n : nat) (y : list (list nat)) : Prop := Forall (fun r => length r = n) y.
(** mutual information of the i-th and j-th labels *)
Definition label_info (info : list nat -> list nat -> Qc) (y : list (list nat)) (i j : nat) : Qc :=
  info (map (fun r => nth i r O) y) (map (fun r => nth j r O) y).
(** every label of y is the label of that node in some labelling with the best score *)
Definition max_marginal (n k : nat) (edges : list (nat * nat)) (U : nat -> nat -> Qc) (P : nat -> nat -> nat -> Qc) (y : list nat) : Prop :=
  labelling n k y /\ forall v, (v < n)%nat -> exists y', maximiser n k edges U P y' /\ lab y' v = lab y v.

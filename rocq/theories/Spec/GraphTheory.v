(** Specification: connectedness and acyclicity of an undirected multigraph given as an
    edge list. *)
From Coq Require Export List Relation_Operators.
Export ListNotations.

Definition connected (edges : list (nat * nat)) (a b : nat) : Prop :=
  clos_refl_sym_trans nat (fun x y => In (x, y) edges) a b.

(** No edge is redundant: taking any edge away disconnects its end points.  (A self loop is
    redundant, and so is each of two parallel edges and each edge on a cycle.) *)
Definition acyclic (edges : list (nat * nat)) : Prop :=
  forall e a b, nth_error edges e = Some (a, b) ->
    ~ connected (firstn e edges ++ skipn (S e) edges) a b.

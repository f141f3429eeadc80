(** Specification of an exact solver: for every pairwise problem on a given graph with
    k >= 1 labels and one shared k*k table, the answer is a labelling of best score. *)
From Verif Require Export Model.CRF Spec.Energy.

Definition exact_solver_on (solve : solver) (n : nat) (edges : list (nat * nat)) : Prop :=
  forall U m k,
    mat_ok U -> mat_ok m -> mrows U = n -> mcols U = k -> mrows m = k -> mcols m = k ->
    (0 < k)%nat ->
    exists y, solve U (Pw2 m) edges = Ok y /\ maximiser n k edges (mget U) (fun _ => mget m) y.

(** table of edge [e] in a pairwise argument *)
Definition pw_table (p : pairwise) (e s t : nat) : Qc :=
  match p with Pw2 m => mget m s t | Pw3 _ _ _ d => get2 (nth e d []) s t end.
Definition pw_shape (p : pairwise) (n_edges k : nat) : Prop :=
  match p with
  | Pw2 m => mrows m = k /\ mcols m = k
  | Pw3 n0 n1 n2 d => n0 = n_edges /\ n1 = k /\ n2 = k /\ length d = n0
  end.

(** an exact solver for every well-shaped problem on a given graph, one table per edge *)
Definition exact_on_tables (solve : solver) (n : nat) (edges : list (nat * nat)) : Prop :=
  forall U p k,
    mat_ok U -> mrows U = n -> mcols U = k -> pw_shape p (length edges) k -> (0 < k)%nat ->
    exists y, solve U p edges = Ok y /\ maximiser n k edges (mget U) (pw_table p) y.

(** sum of the messages into node [v] at label [s]: [fwd e] goes to the second end of edge
    [e], [bwd e] to the first *)
Definition edge_terms (edges : list (nat * nat)) (fwd bwd : nat -> list Qc) (v s : nat) : Qc :=
  sumn (length edges) (fun e =>
    ind (snd (nth e edges (0, 0)%nat) =? v)%nat * get1 (fwd e) s +
    ind (fst (nth e edges (0, 0)%nat) =? v)%nat * get1 (bwd e) s).

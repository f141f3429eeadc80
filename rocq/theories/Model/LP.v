(** Model of pystruct/inference/linear_programming.py and of inference_lp
    (inference_methods.py 284-335).  The solver cvxopt.solvers.lp is a parameter. *)
From Verif Require Export Model.Common.

(** minimise c.x subject to x >= 0 (G = -I, h = 0) and A x = b.  A is the sparse matrix given by
    triples (value, row, column); repeated positions add up. *)
Record lp_problem := LPProblem {
  lp_vars : nat;
  lp_rows : nat;
  lp_c : list Qc;
  lp_A : list (Qc * nat * nat);
  lp_b : list Qc }.

(** cvxopt.solvers.lp(c, G, h, A, b)['x'] *)
Definition lp_solver := lp_problem -> res (list Qc).

(** lines 32-37: summation constraints of the nodes *)
Definition lp_node_triples (n k : nat) : list (Qc * nat * nat) :=
  flat_map (fun i => map (fun j => (1, i, (i * k + j)%nat)) (seq 0 k)) (seq 0 n).

(** lines 43-47: edge, state and end point belonging to loop counter [i] *)
Definition lp_edge (k i : nat) : nat := (i / (2 * k))%nat.
Definition lp_state (k i : nat) : nat := (i mod k)%nat.
Definition lp_end (k i : nat) : nat := ((i mod (2 * k)) / k)%nat.
Definition lp_skip (k i : nat) : bool := (lp_end k i =? 1)%nat && (lp_state k i =? k - 1)%nat.

(** lines 46-69: the row for loop counter [i] *)
Definition lp_row_triples (k off : nat) (edges : list (nat * nat)) (i row : nat) : list (Qc * nat * nat) :=
  let e := nth (lp_edge k i) edges (0, 0)%nat in
  let vertex := if (lp_end k i =? 0)%nat then fst e else snd e in
  let state := lp_state k i in
  let edge_var_index := (off + lp_edge k i * (k * k))%nat in
  (- (1), row, (vertex * k + state)%nat) ::
  map (fun j => (1, row,
        if (lp_end k i =? 0)%nat then (edge_var_index + state * k + j)%nat
        else (edge_var_index + j * k + state)%nat)) (seq 0 k).

(** lines 40-70: the loop, [is] = the remaining counters, [row] = row_idx *)
Fixpoint lp_edge_triples (k off : nat) (edges : list (nat * nat)) (is : list nat) (row : nat)
  : list (Qc * nat * nat) :=
  match is with
  | [] => []
  | i :: r =>
      if lp_skip k i then lp_edge_triples k off edges r row
      else lp_row_triples k off edges i row ++ lp_edge_triples k off edges r (S row)
  end.

(** lines 16-91: the problem handed to the solver; cvxopt.spmatrix takes its number of rows from
    the largest row index. *)
Definition lp_build (U : mat) (edges : list (nat * nat)) (d : list (list (list Qc))) : res lp_problem :=
  let n := mrows U in
  let k := mcols U in
  let n_edges := length edges in
  let n_variables := (n * k + n_edges * (k * k))%nat in
  let triples := lp_node_triples n k ++
                 lp_edge_triples k (n * k) edges (seq 0 (2 * n_edges * k)) n in
  let a_rows := fold_right Nat.max O (map (fun t => S (snd (fst t))) triples) in
  let! _ := ensure (Z.eqb (Z.of_nat n + Z.of_nat n_edges * (2 * Z.of_nat k - 1)) (Z.of_nat a_rows)) AssertionError in
  Ok (LPProblem n_variables a_rows (ravel U ++ concat (map (@concat Qc) d)) triples
        (tab1 a_rows (fun r => ind (r <? n)%nat))).

Definition tenth4 : Qc := Q2Qc (1 # 10000).

(** [lp_general_graph], linear_programming.py 6-99; (n0, n1, n2) = edge_weights.shape. *)
Definition lp_general_graph (solve : lp_solver) (U : mat) (edges : list (nat * nat))
           (n0 n1 n2 : nat) (d : list (list (list Qc))) : res (mat * mat * Qc) :=
  let! _ := ensure (mcols U =? n1)%nat ValueError in
  let! _ := ensure (n1 =? n2)%nat ValueError in
  let! _ := ensure (n0 =? length edges)%nat ValueError in
  let n := mrows U in
  let k := mcols U in
  let! pb := lp_build U edges d in
  let! x := solve pb in
  let! um := reshape (firstn (n * k) x) n k in
  let! pm := reshape (skipn (n * k) x) (length edges) (k * k) in
  let close m := forallb (fun i => Qcltb (Qcabs (sumn (mcols m) (mget m i) - 1)) tenth4) (seq 0 (mrows m)) in
  let! _ := ensure (close um) AssertionError in
  let! _ := ensure (close pm) AssertionError in
  Ok (um, pm, dot (lp_c pb) x).

(** [solve_lp], linear_programming.py 102-109: the same matrix on all edges *)
Definition solve_lp (solve : lp_solver) (U : mat) (edges : list (nat * nat)) (P : mat) : res (mat * mat * Qc) :=
  let! _ := ensure (mcols U =? mrows P)%nat ValueError in
  lp_general_graph solve U edges (length edges) (mrows P) (mcols P) (repeat (mdat P) (length edges)).

(** The answer of an inference routine: integer labels or relaxed marginals. *)
Inductive answer :=
| Labels (y : list nat)
| Marginals (um pm : mat).

Definition mat_neg (m : mat) : mat := Mat (mrows m) (mcols m) (map (map Qcopp) (mdat m)).
Definition argmax_rows (m : mat) : res (list nat) :=
  mapM (fun i => np_argmax (tab1 (mcols m) (mget m i))) (seq 0 (mrows m)).

(** [inference_lp], inference_methods.py 284-335: answer and energy (which the caller gets only
    with return_energy). *)
Definition inference_lp (solve : lp_solver) (U : mat) (p : pairwise) (edges : list (nat * nat)) (relaxed : bool)
  : res (answer * Qc) :=
  let! v := validate_params U p (length edges) in
  let '(k, pws) := v in
  let! r := lp_general_graph solve (mat_neg U) edges (length edges) k k (map (map (map Qcopp)) pws) in
  let '(um, pm, energy) := r in
  if relaxed then Ok (Marginals um pm, energy)
  else let! y := argmax_rows um in Ok (Labels y, energy).

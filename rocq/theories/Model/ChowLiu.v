(** Model of the label graphs of examples/multi_label.py (= benchmarks/multi_label_tree.py) and of make_random_trees of
    benchmarks/random_tree_crf.py.  sklearn.metrics.mutual_info_score and scipy's minimum_spanning_tree are parameters; the second
    gets the size and the entries of the matrix and returns the positions of the entries it keeps (mst.nonzero()). *)
From Verif Require Export Model.MultiLabel Model.MaxProd.

Definition spanning_tree := nat -> (nat -> nat -> Qc) -> list (nat * nat).

(** y_[:, i] *)
Definition column (y : list (list nat)) (i : nat) : res (list nat) := mapM (fun row => index row i) y.
(** mi[i, j] = mutual_info_score(y_[:, i], y_[:, j]) for all i, j, lines 38-41 *)
Definition mutual_information (info : list nat -> list nat -> Qc) (n_labels : nat) (y : list (list nat)) : res (list (list Qc)) :=
  mapM (fun i => mapM (fun j => let! a := column y i in let! b := column y j in Ok (info a b)) (seq 0 n_labels)) (seq 0 n_labels).
(** edges.sort(axis=1) *)
Definition sort_edge (e : nat * nat) : nat * nat := (Nat.min (fst e) (snd e), Nat.max (fst e) (snd e)).
(** [chow_liu_tree], lines 35-45; csr_matrix does not store zeros, so minimum_spanning_tree sees the entries that are not zero *)
Definition chow_liu_tree (info : list nat -> list nat -> Qc) (mst : spanning_tree) (n_labels : nat) (y : list (list nat)) : res (list (nat * nat)) :=
  let! mi := mutual_information info n_labels y in
  Ok (map sort_edge (mst n_labels (fun i j => - get2 mi i j))).

(** full = np.vstack([x for x in itertools.combinations(range(n_labels), 2)]), line 67; vstack rejects an empty list *)
Definition combinations2 (n : nat) : list (nat * nat) := flat_map (fun i => map (fun j => (i, j)) (seq (S i) (n - S i))) (seq 0 n).
Definition full_edges (n_labels : nat) : res (list (nat * nat)) :=
  match combinations2 n_labels with [] => Err ValueError | l => Ok l end.

(** [make_random_trees], random_tree_crf.py lines 15-29.  The draws of np.random.randn are given: the weights, and for each sample
    the distances and the features; np.c_ keeps the orientation of the entries. *)
Definition random_tree (mst : spanning_tree) (n_nodes : nat) (features : mat) (distances : nat -> nat -> Qc) : graph_x :=
  GraphX features (mst n_nodes distances).
Definition make_random_trees (mst : spanning_tree) (n_nodes n_states n_features : nat) (weights : list Qc)
           (draws : list (mat * (nat -> nat -> Qc))) : res (list (graph_x * list nat)) :=
  let crf := GraphCRF n_states n_features false in
  mapM (fun d => let x := random_tree mst n_nodes (fst d) (snd d) in
                 let! y := g_inference (fun U p e => inference_max_product U p e 30 (Q2Qc (1 # 2)) default_tol) crf x weights in
                 Ok (x, y)) draws.

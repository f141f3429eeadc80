(** C82: the label graphs of examples/multi_label.py and benchmarks/multi_label_tree.py, and the random trees of
    benchmarks/random_tree_crf.py.  minimum_spanning_tree is only assumed to return what scipy documents (Spec/ChowLiuSpec). *)
From Coq Require Import ZArith Lia.
From Verif Require Import Spec.ChowLiuSpec Spec.LabelSpec Spec.GraphSpec Spec.SolverSpec Proofs.Kruskal Proofs.ChowLiu.

(** ** The Chow-Liu tree of the labels *)
(** The edges are pairs of different labels, smaller number first, without cycles; labels that share information are connected; if
    the mutual information is symmetric then edges carry information; if it is not negative either, no set of edges without cycles
    carries more information. *)
Theorem C82_chow_liu_tree info mst n y : label_rows n y ->
  minimum_spanning mst n (fun a b => - get2 (tab2 n n (label_info info y)) a b) ->
  exists T, chow_liu_tree info mst n y = Ok T /\ Forall (fun e => (fst e < snd e)%nat /\ (snd e < n)%nat) T /\ acyclic T /\
    (forall a b, (a < n)%nat -> (b < n)%nat -> label_info info y a b <> 0 -> connected T a b) /\
    ((forall a b, label_info info y a b = label_info info y b a) ->
     Forall (fun e => label_info info y (fst e) (snd e) <> 0) T /\
     ((forall a b, (a < n)%nat -> (b < n)%nat -> 0 <= label_info info y a b) ->
      forall T', graph_edges n T' -> acyclic T' -> total (label_info info y) T' <= total (label_info info y) T)).
Proof. exact (chow_liu_ok info mst n y). Qed.
(** A tree, if any two labels share information. *)
Theorem C82_chow_liu_spanning info mst n y : label_rows n y ->
  minimum_spanning mst n (fun a b => - get2 (tab2 n n (label_info info y)) a b) ->
  (forall a b, (a < n)%nat -> (b < n)%nat -> a <> b -> label_info info y a b <> 0) ->
  exists T, chow_liu_tree info mst n y = Ok T /\ length T = (n - 1)%nat /\ forall a b, (a < n)%nat -> (b < n)%nat -> connected T a b.
Proof. exact (chow_liu_all info mst n y). Qed.
(** Not a tree in general: csr_matrix does not store zeros, so labels without common information are not connected. *)
Theorem C82_chow_liu_tree_refuted info mst n y : label_rows n y ->
  minimum_spanning mst n (fun a b => - get2 (tab2 n n (label_info info y)) a b) ->
  (forall a b, (a < n)%nat -> (b < n)%nat -> a <> b -> label_info info y a b = 0) -> chow_liu_tree info mst n y = Ok [].
Proof. exact (chow_liu_none info mst n y). Qed.
(** The assumption on minimum_spanning_tree can be met: the greedy algorithm does. *)
Theorem C82_spanning_exists : exists mst, forall n M, minimum_spanning mst n M.
Proof. exists kruskal. exact kruskal_minimum. Qed.
(** Inference of the tree model: every label is that label in some best labelling; without edges it raises an exception. *)
Theorem C82_tree_model info mst n F y x w T max_iter damping tol : label_rows n y ->
  minimum_spanning mst n (fun a b => - get2 (tab2 n n (label_info info y)) a b) -> chow_liu_tree info mst n y = Ok T ->
  length x = F -> length w = ml_size (ML n F T) -> (2 <= n)%nat ->
  (T <> [] -> exists z, ml_inference (fun U p e => inference_max_product U p e max_iter damping tol) (ML n F T) x w = Ok z /\
     max_marginal n 2 T (label_unary F w x) (label_pair n F w) z) /\
  (T = [] -> exists e, ml_inference (fun U p e => inference_max_product U p e max_iter damping tol) (ML n F T) x w = Err e).
Proof. exact (chow_liu_model info mst n F y x w T max_iter damping tol). Qed.
Theorem C82_forest_max_product n k U p E max_iter damping tol : mat_ok U -> mrows U = n -> mcols U = k -> (0 < k)%nat ->
  pw_shape p (length E) k -> graph_edges n E -> acyclic E -> E <> [] ->
  exists y, inference_max_product U p E max_iter damping tol = Ok y /\ max_marginal n k E (mget U) (pw_table p) y.
Proof. exact (forest_max_product n k U p E max_iter damping tol). Qed.
(** Such a labelling is the best one if there is only one. *)
Theorem C82_unique_best n k E U P y : max_marginal n k E U P y ->
  (forall z z', maximiser n k E U P z -> maximiser n k E U P z' -> z = z') -> (0 < n)%nat -> maximiser n k E U P y.
Proof. exact (marginal_unique n k E U P y). Qed.

(** ** The full graph *)
Theorem C82_full_graph n : (2 <= n)%nat ->
  exists l, full_edges n = Ok l /\ NoDup l /\ forall a b, In (a, b) l <-> (a < b)%nat /\ (b < n)%nat.
Proof. exact (full_ok n). Qed.
Theorem C82_full_graph_one_label n : (n < 2)%nat -> full_edges n = Err ValueError.
Proof. exact (full_small n). Qed.
Theorem C82_full_graph_cycles n l : (3 <= n)%nat -> full_edges n = Ok l -> ~ acyclic l.
Proof. exact (full_cyclic n l). Qed.

(** ** Trees *)
(** A graph without cycles that connects n nodes has n - 1 edges. *)
Theorem C82_tree_edges n E : graph_edges n E -> acyclic E -> (forall a b, (a < n)%nat -> (b < n)%nat -> connected E a b) ->
  length E = (n - 1)%nat.
Proof. exact (tree_count n E). Qed.
(** Random trees: if no distance is zero, every sample is a spanning tree of smallest total distance, with labels that are in some best
    labelling each. *)
Theorem C82_random_trees mst n k F weights draws : (0 < k)%nat -> (0 < n)%nat -> length weights = g_size (GraphCRF k F false) ->
  Forall (fun d => mat_ok (fst d) /\ mrows (fst d) = n /\ mcols (fst d) = F /\ minimum_spanning mst n (snd d) /\
                   forall a b, (a < n)%nat -> (b < n)%nat -> a <> b -> snd d a b <> 0) draws ->
  exists l, make_random_trees mst n k F weights draws = Ok l /\
    Forall2 (fun d p => gx_features (fst p) = fst d /\ graph_edges n (gx_edges (fst p)) /\ acyclic (gx_edges (fst p)) /\
      (forall a b, (a < n)%nat -> (b < n)%nat -> connected (gx_edges (fst p)) a b) /\ length (gx_edges (fst p)) = (n - 1)%nat /\
      (forall T, graph_edges n T -> acyclic T -> (forall a b, (a < n)%nat -> (b < n)%nat -> connected T a b) ->
                 total (snd d) (gx_edges (fst p)) <= total (snd d) T) /\
      max_marginal n k (gx_edges (fst p)) (fun i => unary_score F weights (mget (fst d) i)) (fun _ => pair_score k F false weights) (snd p)) draws l.
Proof. exact (random_trees_ok mst n k F weights draws). Qed.

(** ** Examples *)
(** four samples of three labels; agreement beyond chance stands in for the mutual information *)
Definition ex43_y : list (list nat) := [[0; 0; 1]; [1; 1; 0]; [1; 1; 1]; [0; 1; 1]]%nat.
Definition ex43_info (a b : list nat) : Qc :=
  let agree := length (filter (fun p => Nat.eqb (fst p) (snd p)) (combine a b)) in
  let d := ofN agree - (1 + 1) in d * d.
Example C82_met : label_rows 3 ex43_y /\ minimum_spanning kruskal 3 (fun a b => - get2 (tab2 3 3 (label_info ex43_info ex43_y)) a b).
Proof. split; [repeat constructor|apply kruskal_minimum]. Qed.
Example C82_computed :
  match chow_liu_tree ex43_info kruskal 3 ex43_y with
  | Ok T => T = [(0, 1); (0, 2)]%nat /\ this (total (label_info ex43_info ex43_y) T) = 2%Q
  | Err _ => False
  end /\ full_edges 3 = Ok [(0, 1); (0, 2); (1, 2)]%nat.
Proof. vm_compute. auto. Qed.
Definition ex43_draw : mat * (nat -> nat -> Qc) :=
  (Mat 3 1 [[1]; [-(1)]; [1 + 1]], fun a b => ofZ (Z.of_nat (5 * a + 3 * b) - 7)).
Example C82_random_met : mat_ok (fst ex43_draw) /\ mrows (fst ex43_draw) = 3%nat /\ mcols (fst ex43_draw) = 1%nat /\
  minimum_spanning kruskal 3 (snd ex43_draw) /\
  forallb (fun a => forallb (fun b => (a =? b)%nat || negb (Qceqb (snd ex43_draw a b) 0)) (seq 0 3)) (seq 0 3) = true.
Proof.
  split; [repeat constructor|]. split; [reflexivity|]. split; [reflexivity|]. split; [apply kruskal_minimum|vm_compute; reflexivity].
Qed.
Example C82_random_computed :
  match make_random_trees kruskal 3 2 1 (map ofZ [1; -1; 1; 0; -1]%Z) [ex43_draw] with
  | Ok [(x, z)] => gx_edges x = [(0, 1); (0, 2)]%nat /\ z = [0; 1; 0]%nat
  | _ => False
  end.
Proof. vm_compute. auto. Qed.
Print Assumptions C82_chow_liu_tree.
Print Assumptions C82_chow_liu_spanning.
Print Assumptions C82_chow_liu_tree_refuted.
Print Assumptions C82_spanning_exists.
Print Assumptions C82_tree_model.
Print Assumptions C82_forest_max_product.
Print Assumptions C82_unique_best.
Print Assumptions C82_full_graph.
Print Assumptions C82_full_graph_one_label.
Print Assumptions C82_full_graph_cycles.
Print Assumptions C82_tree_edges.
Print Assumptions C82_random_trees.

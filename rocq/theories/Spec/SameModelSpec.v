(** The graph models against each other: EdgeFeatureGraphCRF with a constant edge feature,
    GraphCRF directed and undirected, GridCRF, DirectionalGridCRF and ChainCRF. *)
From Verif Require Export Base.Sums Model.EdgeFeature Model.Grid.

(** every edge carries the single feature 1 *)
Definition with_constant_edges (x : graph_x) : ef_x :=
  EFX (gx_features x) (gx_edges x) (Mat (length (gx_edges x)) 1 (repeat [1] (length (gx_edges x)))).
(** the edge-feature model of the same sizes, with one edge feature *)
Definition one_edge_feature (g : graph_crf) : ef_crf := EFCRF (g_states g) (g_features g) 1 [] [].

(** A solver that does not care whether one table is shared by all edges or repeated for each. *)
Definition shape_blind (solve : mat -> pairwise -> list (nat * nat) -> res (list nat)) : Prop :=
  forall U P es, mat_ok P -> mrows P = mcols U -> mcols P = mcols U ->
    solve U (Pw2 P) es = solve U (Pw3 (length es) (mcols U) (mcols U) (repeat (mdat P) (length es))) es.
(** A solver that labels every node once. *)
Definition labels_nodes (solve : mat -> pairwise -> list (nat * nat) -> res (list nat)) : Prop :=
  forall U P es y, mat_ok U -> solve U P es = Ok y -> length y = mrows U.

(** [w'] is [w] with the triangular pairwise weights written out as a symmetric table:
    entry (s, t) with t <= s is number s(s+1)/2 + t of the triangle. *)
Definition written_out (k f : nat) (w w' : list Qc) : Prop :=
  length w' = (k * f + k * k)%nat /\
  (forall i, (i < k * f)%nat -> get1 w' i = get1 w i) /\
  (forall s t, (s < k)%nat -> (t <= s)%nat ->
     get1 w' (k * f + (s * k + t)) = get1 w (k * f + (s * (s + 1) / 2 + t)) /\
     get1 w' (k * f + (t * k + s)) = get1 w (k * f + (s * (s + 1) / 2 + t))).

(** an (h, w, c) array with the features of the model in the last dimension *)
Definition grid_ok (g : grid_crf) (x : grid_x) : Prop :=
  length (gr_data x) = (gr_h x * gr_w x * gr_features g)%nat /\ (0 < gr_features g)%nat.
(** the graph of a picture with labelled edge directions, for the 4-neighbourhood *)
Definition dir_graph (g : grid_crf) (x : grid_x) : res ef_x :=
  let! f := grid_features (gr_features g) x in
  let! e := make_grid_edges (gr_h x) (gr_w x) (gr_neighborhood g) in
  let! ef := dir_edge_features g x in
  Ok (EFX f e ef).

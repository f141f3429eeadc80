(** The same graph with its node features in another order: feature [j] is what feature
    [part p j] was before. *)
From Verif Require Export Spec.SimilarSpec Spec.SwapTypesSpec Model.Instances.

Definition reorder_x (p : list nat) (x : graph_x) : graph_x :=
  let f := gx_features x in
  GraphX (mtab (mrows f) (mcols f) (fun i j => mget f i (part p j))) (gx_edges x).
(** the weights of every state in the same order, the pairwise weights as they were *)
Definition reordered_weights (g : graph_crf) (p : list nat) (v v' : list Qc) : Prop :=
  length v = g_size g /\ length v' = g_size g /\
  (forall s j, (s < g_states g)%nat -> (j < g_features g)%nat ->
     get1 v' (s * g_features g + j) = get1 v (s * g_features g + part p j)) /\
  (forall i, (g_states g * g_features g <= i)%nat -> get1 v' i = get1 v i).
Definition reordered_label (g : graph_crf) (p : list nat) (x x' : graph_x) (y y' : list nat) : Prop :=
  mcols (gx_features x) = g_features g /\ x' = reorder_x p x /\ y' = y.

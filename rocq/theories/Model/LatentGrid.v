(** Model of pystruct/models/latent_grid_crf.py (LatentGridCRF, LatentDirectionalGridCRF).

    Images are (h, w, c) arrays as in Model/Grid.v; 2-d labellings are raveled.  Not modelled: relaxed results of inference;
    labellings of one size but different shapes. *)
From Verif Require Export Model.Grid Model.LatentLearner.

(** ** LatentGridCRF, lines 8-50 *)
(** [__init__], lines 11-17, with n_labels and n_features known: n_states comes from LatentGraphCRF._set_size_joint_feature
    (lines 19-20), the neighborhood from GridCRF.__init__ *)
Record ltg_crf := LTG { tg_lg : lg_crf; tg_nb : nat }.
Definition ltg_setup (n_labels n_features : nat) (p : per_label) (neighborhood : nat) : res ltg_crf :=
  let! g := lg_setup n_labels n_features p in Ok (LTG g neighborhood).
(** the GridCRF underneath *)
Definition ltg_grid (t : ltg_crf) : grid_crf := GridCRF (lg_states (tg_lg t)) (lg_features (tg_lg t)) (tg_nb t).

(** [loss_augmented_inference], lines 35-39 *)
Definition ltg_loss_augmented_inference (solve : solver) (t : ltg_crf) (x : grid_x) (h : list nat) (w : list Qc) : res (list nat) :=
  let! gx := grid_graph (ltg_grid t) x in
  let! h_hat := lg_loss_augmented_inference solve (tg_lg t) gx h w in
  reshape_y x h_hat.
(** [latent], lines 41-43: res.reshape(y.shape) *)
Definition ltg_latent (solve : solver) (t : ltg_crf) (x : grid_x) (y : list nat) (w : list Qc) : res (list nat) :=
  let! gx := grid_graph (ltg_grid t) x in
  let! h := lg_latent solve (tg_lg t) gx y w in
  let! _ := ensure (length h =? length y)%nat ValueError in Ok h.
(** X.reshape(...) and Y.reshape(...), lines 29-30: lists have no reshape; arrays have samples of one shape.  (Samples of
    different shapes make an object array, which cannot be reshaped; one feature per node, where numpy would let it pass, is
    not told apart.) *)
Definition stack_samples (arrays : bool) (S : list (grid_x * list nat)) : res unit :=
  let! _ := ensure arrays AttributeError in
  let shape p := (gr_h (fst p), gr_w (fst p), gr_c (fst p), length (snd p)) in
  ensure (match S with
          | [] => false
          | s :: r => forallb (fun p => let '(a, b, c, d) := shape s in let '(a', b', c', d') := shape p in
                                        ((a =? a') && (b =? b') && (c =? c') && (d =? d'))%nat) r
          end) ValueError.
(** [init_latent], lines 25-33 *)
Definition ltg_init_latent (cluster : clusterer) (t : ltg_crf) (arrays : bool) (S : list (grid_x * list nat)) : res (list (list nat)) :=
  let! es := mapM (fun p => make_grid_edges (gr_h (fst p)) (gr_w (fst p)) (tg_nb t)) S in
  let! _ := stack_samples arrays S in
  let! fs := mapM (fun p => grid_features (lg_features (tg_lg t)) (fst p)) S in
  kmeans_init cluster (lg_labels (tg_lg t)) (lg_counts (tg_lg t)) true
    (map (fun q => (fst (fst q), snd (fst q), [snd q])) (combine (combine fs (map snd S)) es)).
(** the model object; inference and joint_feature are GridCRF's, loss and label_from_latent LatentGraphCRF's (method
    resolution order LatentGridCRF, GridCRF, LatentGraphCRF, GraphCRF, ...) *)
Definition ltg_smodel (solve : solver) (t : ltg_crf) : smodel grid_x (list nat) :=
  SModel (g_size (lg_graph (tg_lg t))) false (fun x h _ => grid_joint_feature (ltg_grid t) x (Discrete h))
    (grid_inference solve (ltg_grid t)) (ltg_loss_augmented_inference solve t)
    (fun _ => false) (lg_loss (tg_lg t)) (fun _ _ => Err AttributeError).
Definition ltg_lmodel (solve : solver) (cluster : clusterer) (t : ltg_crf) : lmodel grid_x (list nat) :=
  LModel (ltg_smodel solve t) (ltg_latent solve t) (label_from_latent (tg_lg t)) (lg_base_loss (tg_lg t))
    (max_loss (lg_cw (tg_lg t))) (ltg_init_latent cluster t true).

(** ** LatentDirectionalGridCRF, lines 53-91 *)
(** attributes: those of LatentGraphCRF, n_edge_features, neighborhood *)
Record ldg_crf := LDG { dg_lg : lg_crf; dg_edge_features : nat; dg_nb : nat }.
(** [__init__], lines 63-70: neighborhood is not handed on to LatentGridCRF.__init__, which resets it to the default 4 *)
Definition ldg_setup (n_labels n_features : nat) (p : per_label) (neighborhood : nat) : res ldg_crf :=
  let! g := lg_setup n_labels n_features p in
  Ok (LDG g (if (neighborhood =? 4)%nat then 2 else 4) 4).
(** the EdgeFeatureGraphCRF underneath; size_joint_feature is DirectionalGridCRF's, lines 72-74 *)
Definition ldg_ef (d : ldg_crf) : ef_crf := EFCRF (lg_states (dg_lg d)) (lg_features (dg_lg d)) (dg_edge_features d) [] [].
Definition ldg_size (d : ldg_crf) : nat := ef_size (ldg_ef d).
(** _get_features, _get_edges, _get_edge_features and _check_size_x of DirectionalGridCRF, grid_crf.py 47-48 and 131-172 *)
Definition ldg_edges (d : ldg_crf) (x : grid_x) : res (list (nat * nat)) := make_grid_edges (gr_h x) (gr_w x) (dg_nb d).
Definition ldg_features (d : ldg_crf) (x : grid_x) : res mat :=
  let! f := grid_features (lg_features (dg_lg d)) x in
  let! _ := ensure (mcols f =? lg_features (dg_lg d))%nat ValueError in Ok f.
Definition ldg_edge_feats (d : ldg_crf) (x : grid_x) : res mat :=
  let! l := make_grid_edge_lists (gr_h x) (gr_w x) (dg_nb d) in edge_list_to_features l.
(** _get_unary_potentials of GraphCRF, _get_pairwise_potentials and joint_feature of EdgeFeatureGraphCRF *)
Definition ldg_unary (d : ldg_crf) (x : grid_x) (w : list Qc) : res mat :=
  let! _ := check_size_w (ldg_size d) w in
  let! f := ldg_features d x in
  ef_unary_core (ldg_ef d) f w.
Definition ldg_pairwise (d : ldg_crf) (x : grid_x) (w : list Qc) : res pairwise :=
  let! _ := check_size_w (ldg_size d) w in
  let! f := ldg_features d x in
  let! ef := ldg_edge_feats d x in
  ef_pairwise_core (ldg_ef d) ef w.
Definition ldg_joint_feature (d : ldg_crf) (x : grid_x) (y : ef_label) : res (list Qc) :=
  let! f := ldg_features d x in
  let! e := ldg_edges d x in
  let! ef := ldg_edge_feats d x in
  ef_joint_feature_core (ldg_ef d) f e ef y.
(** GridCRF.inference *)
Definition ldg_inference (solve : solver) (d : ldg_crf) (x : grid_x) (w : list Qc) : res (list nat) :=
  let! U := ldg_unary d x w in
  let! P := ldg_pairwise d x w in
  let! e := ldg_edges d x in
  let! y := solve U P e in
  reshape_y x y.
(** [loss_augmented_inference], lines 88-91 *)
Definition ldg_loss_augmented_inference (solve : solver) (d : ldg_crf) (x : grid_x) (h : list nat) (w : list Qc) : res (list nat) :=
  let! U := ldg_unary d x w in
  let! P := ldg_pairwise d x w in
  let! e := ldg_edges d x in
  let! U := lg_augment (dg_lg d) h (seq 0 (lg_states (dg_lg d))) U in
  let! h_hat := solve U P e in
  reshape_y x h_hat.
(** LatentGridCRF.latent on these potentials *)
Definition ldg_latent (solve : solver) (d : ldg_crf) (x : grid_x) (y : list nat) (w : list Qc) : res (list nat) :=
  let g := dg_lg d in
  let! u := ldg_unary d x w in
  let! mx := np_max (ravel u) in
  let max_entry := Qcmax mx 1 in
  let! _ := ensure ((length y =? mrows u) && (length (lg_map g) =? mcols u))%nat IndexError in
  let u := mtab (mrows u) (mcols u)
             (fun i s => if (nth s (lg_map g) O =? nth i y O)%nat then mget u i s else - ofN 100 * max_entry) in
  let! P := ldg_pairwise d x w in
  let! e := ldg_edges d x in
  let! h := solve u P e in
  let! labels := label_from_latent g h in
  let! dif := mismatch labels y in
  let! h := (if forallb (fun q => Qceqb q 0) dif then Ok h
             else mapM (index (O :: np_cumsum (lg_counts g))) y) in
  let! _ := ensure (length h =? length y)%nat ValueError in Ok h.
(** [init_latent], lines 79-86: one graph per direction, both ways *)
Definition ldg_init_latent (cluster : clusterer) (d : ldg_crf) (arrays : bool) (S : list (grid_x * list nat)) : res (list (list nat)) :=
  let! es := mapM (fun p => make_grid_edge_lists (gr_h (fst p)) (gr_w (fst p)) (dg_nb d)) S in
  let! _ := stack_samples arrays S in
  let! fs := mapM (fun p => grid_features (lg_features (dg_lg d)) (fst p)) S in
  kmeans_init cluster (lg_labels (dg_lg d)) (lg_counts (dg_lg d)) false
    (combine (combine fs (map snd S)) es).
Definition ldg_smodel (solve : solver) (d : ldg_crf) : smodel grid_x (list nat) :=
  SModel (ldg_size d) false (fun x h _ => ldg_joint_feature d x (EDiscrete h))
    (ldg_inference solve d) (ldg_loss_augmented_inference solve d)
    (fun _ => false) (lg_loss (dg_lg d)) (fun _ _ => Err AttributeError).
Definition ldg_lmodel (solve : solver) (cluster : clusterer) (d : ldg_crf) : lmodel grid_x (list nat) :=
  LModel (ldg_smodel solve d) (ldg_latent solve d) (label_from_latent (dg_lg d)) (lg_base_loss (dg_lg d))
    (max_loss (lg_cw (dg_lg d))) (ldg_init_latent cluster d true).

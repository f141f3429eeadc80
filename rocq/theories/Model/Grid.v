(** Model of pystruct/utils/graph.py and pystruct/models/grid_crf.py
    (GridCRF, DirectionalGridCRF). *)
From Verif Require Export Model.EdgeFeature.

(** np.arange(h * w).reshape(h, w) *)
Definition grid_inds (h w : nat) : list (list nat) :=
  map (fun i => map (fun j => (i * w + j)%nat) (seq 0 w)) (seq 0 h).
(** np.c_[a.ravel(), b.ravel()] *)
Definition np_c_ (a b : list (list nat)) : list (nat * nat) := combine (concat a) (concat b).

(** [make_grid_edges] with return_lists=True, graph.py 4-19.  [:-1] is removelast,
    [1:] is tl, on rows (outside) or columns (under map). *)
Definition make_grid_edge_lists (h w neighborhood : nat) : res (list (list (nat * nat))) :=
  if negb ((neighborhood =? 4) || (neighborhood =? 8))%nat then Err ValueError
  else
    let inds := grid_inds h w in
    let right := np_c_ (map (@removelast nat) inds) (map (@tl nat) inds) in
    let down := np_c_ (removelast inds) (tl inds) in
    if (neighborhood =? 8)%nat then
      let upright := np_c_ (map (@removelast nat) (tl inds)) (map (@tl nat) (removelast inds)) in
      let downright := np_c_ (map (@removelast nat) (removelast inds)) (map (@tl nat) (tl inds)) in
      Ok [right; down; upright; downright]
    else Ok [right; down].
(** [make_grid_edges] with return_lists=False: np.vstack of the lists *)
Definition make_grid_edges (h w neighborhood : nat) : res (list (nat * nat)) :=
  let! l := make_grid_edge_lists h w neighborhood in Ok (concat l).

(** [edge_list_to_features], graph.py 22-27 (edge_list[0] exists: it is never empty here) *)
Definition edge_list_to_features (l : list (list (nat * nat))) : res mat :=
  match l with
  | [] => Err ValueError                               (* np.vstack([]) *)
  | first :: _ =>
      Ok (mtab (length (concat l)) 2
            (fun e c => if (e <? length first)%nat then ind (c =? 0)%nat else ind (c =? 1)%nat))
  end.

(** ** GridCRF, grid_crf.py 7-82 *)
(** an instance: an (h, w, c) array, raveled *)
Record grid_x := GridX { gr_h : nat; gr_w : nat; gr_c : nat; gr_data : list Qc }.
Record grid_crf := GridCRF { gr_states : nat; gr_features : nat; gr_neighborhood : nat }.

(** [_get_features]: x.reshape(-1, n_features), lines 47-48 *)
Definition grid_features (n_features : nat) (x : grid_x) : res mat :=
  if (n_features =? 0)%nat then Err ValueError
  else reshape (gr_data x) (length (gr_data x) / n_features) n_features.

(** the (features, edges) pair every GraphCRF method works on *)
Definition grid_graph (g : grid_crf) (x : grid_x) : res graph_x :=
  let! f := grid_features (gr_features g) x in
  let! e := make_grid_edges (gr_h x) (gr_w x) (gr_neighborhood g) in
  Ok (GraphX f e).
(** GridCRF.__init__ leaves directed=False, lines 38-42 *)
Definition grid_gcrf (g : grid_crf) : graph_crf := GraphCRF (gr_states g) (gr_features g) false.

Definition grid_joint_feature (g : grid_crf) (x : grid_x) (y : label) : res (list Qc) :=
  let! gx := grid_graph g x in g_joint_feature (grid_gcrf g) gx y.
(** [_reshape_y] on an integer labelling, lines 50-61: y.reshape(x.shape[:-1]) *)
Definition reshape_y (x : grid_x) (y : list nat) : res (list nat) :=
  let! _ := ensure (length y =? gr_h x * gr_w x)%nat ValueError in Ok y.
(** [inference], [loss_augmented_inference], lines 63-74; 2-d labellings are raveled *)
Definition grid_inference (solve : solver) (g : grid_crf) (x : grid_x) (w : list Qc) : res (list nat) :=
  let! gx := grid_graph g x in
  let! y := g_inference solve (grid_gcrf g) gx w in
  reshape_y x y.
Definition grid_loss_augmented_inference (solve : solver) (g : grid_crf) (cw : list Qc)
           (x : grid_x) (y : list nat) (w : list Qc) : res (list nat) :=
  let! gx := grid_graph g x in
  let! y_hat := g_loss_augmented_inference solve (grid_gcrf g) cw gx y w in
  reshape_y x y_hat.

(** ** DirectionalGridCRF, grid_crf.py 83-172 *)
(** __init__, lines 117-123, and _set_size_joint_feature, lines 125-129 *)
Definition dir_efcrf (g : grid_crf) : ef_crf :=
  EFCRF (gr_states g) (gr_features g) (if (gr_neighborhood g =? 4)%nat then 2 else 4) [] [].
Definition dir_size (g : grid_crf) : nat := ef_size (dir_efcrf g).

(** [_check_size_x] (lines 131-132) is the one of CRF: the number of features only, which
    the reshape of _get_features makes true by construction. *)
Definition dir_check_x (g : grid_crf) (features : mat) : res unit :=
  ensure (mcols features =? gr_features g)%nat ValueError.
(** [_get_edge_features], lines 171-172 *)
Definition dir_edge_features (g : grid_crf) (x : grid_x) : res mat :=
  let! l := make_grid_edge_lists (gr_h x) (gr_w x) (gr_neighborhood g) in
  edge_list_to_features l.

Definition dir_joint_feature (g : grid_crf) (x : grid_x) (y : ef_label) : res (list Qc) :=
  let! f := grid_features (gr_features g) x in
  let! _ := dir_check_x g f in
  let! e := make_grid_edges (gr_h x) (gr_w x) (gr_neighborhood g) in
  let! ef := dir_edge_features g x in
  ef_joint_feature_core (dir_efcrf g) f e ef y.
Definition dir_unary (g : grid_crf) (x : grid_x) (w : list Qc) : res mat :=
  let! _ := check_size_w (dir_size g) w in
  let! f := grid_features (gr_features g) x in
  let! _ := dir_check_x g f in
  ef_unary_core (dir_efcrf g) f w.
Definition dir_pairwise (g : grid_crf) (x : grid_x) (w : list Qc) : res pairwise :=
  let! _ := check_size_w (dir_size g) w in
  let! f := grid_features (gr_features g) x in
  let! _ := dir_check_x g f in
  let! ef := dir_edge_features g x in
  ef_pairwise_core (dir_efcrf g) ef w.
Definition dir_inference (solve : solver) (g : grid_crf) (x : grid_x) (w : list Qc) : res (list nat) :=
  let! U := dir_unary g x w in
  let! P := dir_pairwise g x w in
  let! e := make_grid_edges (gr_h x) (gr_w x) (gr_neighborhood g) in
  let! y := solve U P e in
  reshape_y x y.

(** Model of pystruct/models/chain_crf.py *)
From Verif Require Export Model.CRF Model.MaxProd.

(** [make_chain_edges], chain_crf.py 6-11: columns inds[:-1] and inds[1:] *)
Definition make_chain_edges (n_nodes : nat) : list (nat * nat) :=
  let inds := seq 0 n_nodes in combine (removelast inds) (tl inds).

(** An instance of ChainCRF is the feature matrix; [_get_edges], [_get_features], 56-60. *)
Definition chain_x (x : mat) : graph_x := GraphX x (make_chain_edges (mrows x)).

(** inference_dispatch with inference_method="max-product": the defaults of
    inference_max_product, maxprod.py 22-23 *)
Definition max_product_solver : solver :=
  fun U p edges => inference_max_product U p edges 30 (Q2Qc (1 # 2)) default_tol.

(** ChainCRF.inference and loss_augmented_inference with the default inference method *)
Definition chain_inference (g : graph_crf) (x : mat) (w : list Qc) : res (list nat) :=
  g_inference max_product_solver g (chain_x x) w.
Definition chain_loss_augmented_inference (g : graph_crf) (cw : list Qc) (x : mat) (y : list nat) (w : list Qc)
  : res (list nat) :=
  g_loss_augmented_inference max_product_solver g cw (chain_x x) y w.

(** Model of CRF.inference and CRF.loss_augmented_inference (pystruct/models/crf.py)
    for GraphCRF; the inference method is a parameter [solve] standing for
    inference_dispatch(unary, pairwise, edges, self.inference_method, relaxed=False). *)
From Verif Require Export Model.GraphCRF Model.Loss.

Definition solver := mat -> pairwise -> list (nat * nat) -> res (list nat).

(** potentials computed by CRF.inference, crf.py 165-169 *)
Definition g_potentials (g : graph_crf) (x : graph_x) (w : list Qc) : res (mat * mat) :=
  let! _ := check_size_w (g_size g) w in
  let! U := g_unary g x w in
  let! P := g_pairwise g x w in
  Ok (U, P).

(** [CRF.inference], crf.py 120-183 (constraints=None). *)
Definition g_inference (solve : solver) (g : graph_crf) (x : graph_x) (w : list Qc) : res (list nat) :=
  let! p := g_potentials g x w in
  solve (fst p) (Pw2 (snd p)) (gx_edges x).

(** [CRF.loss_augmented_inference], crf.py 62-118. *)
Definition g_loss_augmented_inference (solve : solver) (g : graph_crf) (cw : list Qc)
           (x : graph_x) (y : list nat) (w : list Qc) : res (list nat) :=
  let! p := g_potentials g x w in
  let! U := loss_augment_unaries (fst p) y cw in
  solve U (Pw2 (snd p)) (gx_edges x).

(** GraphCRF as the learners use it: they ask loss-augmented inference for relaxed solutions
    (relaxed=True in n_slack_ssvm.py through utils/inference.py 54-65, one_slack_ssvm.py 374-379,
    frankwolfe_ssvm.py 134 and 160, subgradient_ssvm.py 303), so that 'lp' and 'ad3' may answer
    with a tuple of marginals.  A labelling is a [result] of inference_dispatch. *)
From Coq Require Import String.
From Verif Require Export Model.Inference Model.Instances Model.MoreInstances Model.NSlack Model.OneSlack.
#[local] Open Scope list_scope.

(** isinstance(y, tuple) *)
Definition is_tuple (r : result) : bool := match r with RLabels _ => false | _ => true end.
(** ground truths are arrays of labels; anything else is refused here *)
Definition truth (r : result) : res (list nat) := match r with RLabels y => Ok y | _ => Err TypeError end.
(** the argument of joint_feature: both arrays are reshaped there (graph_crf.py 186-191), so only
    their entries in order matter; a list of arrays has no reshape *)
Definition result_label (r : result) : res label :=
  match r with
  | RLabels y => Ok (Discrete y)
  | RMarginals um pm => Ok (Relaxed (ravel um) (ravel pm))
  | RMarginalsList _ _ => Err AttributeError
  end.

(** [CRF.loss_augmented_inference], crf.py 62-118, and [CRF.inference], crf.py 120-184, without
    return_energy and constraints *)
Definition g_dispatch_laug (b : backends) (meth : method) (g : graph_crf) (cw : list Qc) (relaxed : bool)
           (x : graph_x) (y : list nat) (w : list Qc) : res result :=
  let! p := g_potentials g x w in
  let! U := loss_augment_unaries (fst p) y cw in
  let! r := inference_dispatch b (Single U (Pw2 (snd p)) (gx_edges x)) meth false [("relaxed"%string, VBool relaxed)] in
  Ok (fst r).
Definition g_dispatch_inference (b : backends) (meth : method) (g : graph_crf) (relaxed : bool)
           (x : graph_x) (w : list Qc) : res result :=
  let! p := g_potentials g x w in
  let! r := inference_dispatch b (Single (fst p) (Pw2 (snd p)) (gx_edges x)) meth false [("relaxed"%string, VBool relaxed)] in
  Ok (fst r).

(** continuous_loss(y, y_hat[0]), base.py 78-89 *)
Definition r_continuous_loss (cw : list Qc) (y y_hat : result) : res Qc :=
  let! t := truth y in
  match y_hat with
  | RMarginals um _ => continuous_loss (Some cw) t um
  | _ => Err AttributeError
  end.
(** loss, base.py 60-66 *)
Definition r_loss (cw : list Qc) (y y_hat : result) : res Qc :=
  let! t := truth y in
  match y_hat with
  | RLabels yh => loss (Some cw) t yh
  | _ => r_continuous_loss cw y y_hat
  end.
(** the model object; learners call inference without relaxed, whose default is False *)
Definition relaxed_smodel (b : backends) (meth : method) (g : graph_crf) (cw : list Qc) : smodel graph_x result :=
  SModel (g_size g) false
    (fun x y _ => let! l := result_label y in g_joint_feature g x l)
    (g_dispatch_inference b meth g false)
    (fun x y w => let! t := truth y in g_dispatch_laug b meth g cw true x t w)
    is_tuple (r_loss cw) (r_continuous_loss cw).

(** np.all(unwrap_pairwise(a) == unwrap_pairwise(b)), n_slack_ssvm.py 209-213 with
    utils/inference.py 7-11: of a tuple only the first entry, the unary marginals, is compared.
    [mixed] is what comparing labels with marginals gives (version dependent). *)
Definition plain_eqb (mixed : result -> result -> bool) (a b : result) : bool :=
  match a, b with
  | RLabels y, RLabels z => labels_eqb y z
  | RMarginals u _, RMarginals v _ => rows_eqb (mdat u) (mdat v)
  | _, _ => mixed a b
  end.

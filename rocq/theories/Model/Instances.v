(** The concrete models as seen by the learners. *)
From Verif Require Export Model.Learner Model.Unstructured Model.CRF Model.ChainCRF Model.EdgeFeature.

(** BinaryClf: no class_weight, no relaxed solutions *)
Definition bc_smodel (F : nat) : smodel (list Qc) Z :=
  SModel F false (fun x y _ => bc_joint_feature x y) bc_inference bc_laug
    (fun _ => false) (fun y y' => Ok (bc_loss y y')) (fun _ _ => Err AttributeError).

Definition mc_smodel (m : mc_clf) : smodel (list Qc) nat :=
  SModel (mc_size m) (mc_rescale m) (mc_joint_feature m) (mc_inference m) (mc_laug m)
    (fun _ => false) (mc_loss m) (fun _ _ => Err AttributeError).

(** GraphCRF with a solver returning integer labellings *)
Definition g_smodel (solve : solver) (g : graph_crf) (cw : list Qc) : smodel graph_x (list nat) :=
  SModel (g_size g) false (fun x y _ => g_joint_feature g x (Discrete y))
    (g_inference solve g) (g_loss_augmented_inference solve g cw)
    (fun _ => false) (loss (Some cw)) (fun _ _ => Err AttributeError).

(** EdgeFeatureGraphCRF likewise *)
Definition ef_smodel (solve : solver) (g : ef_crf) (cw : list Qc) : smodel ef_x (list nat) :=
  SModel (ef_size g) false (fun x y _ => ef_joint_feature g x (EDiscrete y))
    (ef_inference solve g) (ef_loss_augmented_inference solve g cw)
    (fun _ => false) (loss (Some cw)) (fun _ _ => Err AttributeError).

(** ChainCRF with its default max-product inference *)
Definition chain_smodel (g : graph_crf) (cw : list Qc) : smodel mat (list nat) :=
  SModel (g_size g) false (fun x y _ => g_joint_feature g (chain_x x) (Discrete y))
    (chain_inference g) (chain_loss_augmented_inference g cw)
    (fun _ => false) (loss (Some cw)) (fun _ _ => Err AttributeError).

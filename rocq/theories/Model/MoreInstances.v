(** GridCRF, DirectionalGridCRF and MultiLabelClf as seen by the learners.  The solver returns
    integer labellings; 2-d labellings are raveled. *)
From Verif Require Export Model.Instances Model.Grid Model.MultiLabel.

Definition grid_smodel (solve : solver) (g : grid_crf) (cw : list Qc) : smodel grid_x (list nat) :=
  SModel (g_size (grid_gcrf g)) false (fun x y _ => grid_joint_feature g x (Discrete y))
    (grid_inference solve g) (grid_loss_augmented_inference solve g cw)
    (fun _ => false) (loss (Some cw)) (fun _ _ => Err AttributeError).

(** GridCRF.loss_augmented_inference (grid_crf.py 69-74) on a DirectionalGridCRF: the method of
    CRF (crf.py 120-183) with the potentials of EdgeFeatureGraphCRF, then _reshape_y *)
Definition dir_loss_augmented_inference (solve : solver) (g : grid_crf) (cw : list Qc)
           (x : grid_x) (y : list nat) (w : list Qc) : res (list nat) :=
  let! U := dir_unary g x w in
  let! P := dir_pairwise g x w in
  let! e := make_grid_edges (gr_h x) (gr_w x) (gr_neighborhood g) in
  let! U' := loss_augment_unaries U y cw in
  let! y_hat := solve U' P e in
  reshape_y x y_hat.
Definition dir_smodel (solve : solver) (g : grid_crf) (cw : list Qc) : smodel grid_x (list nat) :=
  SModel (dir_size g) false (fun x y _ => dir_joint_feature g x (EDiscrete y))
    (dir_inference solve g) (dir_loss_augmented_inference solve g cw)
    (fun _ => false) (loss (Some cw)) (fun _ _ => Err AttributeError).

Definition ml_smodel (solve : solver) (m : ml_clf) : smodel (list Qc) (list nat) :=
  SModel (ml_size m) false (fun x y _ => ml_joint_feature m x (MDiscrete y))
    (ml_inference solve m) (ml_loss_augmented_inference solve m)
    (fun _ => false) (loss (Some (ml_class_weight m))) (fun _ _ => Err AttributeError).

(** np.all(y1 == y2) on label arrays; arrays of different lengths compare as False *)
Definition labels_eqb (a b : list nat) : bool :=
  (length a =? length b)%nat && forallb (fun p => (fst p =? snd p)%nat) (combine a b).

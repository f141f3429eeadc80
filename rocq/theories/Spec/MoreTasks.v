(** The structured prediction tasks of the grid, edge-feature and multi-label models: the allowed
    outputs, the joint feature of the code (whose score is described by C12, C13, C14 and C18), the loss. *)
From Verif Require Export Spec.TaskInstances Spec.EdgeSpec Model.Grid Model.MultiLabel.

Definition grid_task (g : grid_crf) (cw : list Qc) : task grid_x (list nat) :=
  Task (fun x y => labelling (gr_h x * gr_w x) (gr_states g) y)
       (fun x y => ok_or [] (grid_joint_feature g x (Discrete y)))
       (fun y y' => hamming (length y) (get1 cw) (lab y) (lab y')).
Definition dir_task (g : grid_crf) (cw : list Qc) : task grid_x (list nat) :=
  Task (fun x y => labelling (gr_h x * gr_w x) (gr_states g) y)
       (fun x y => ok_or [] (dir_joint_feature g x (EDiscrete y)))
       (fun y y' => hamming (length y) (get1 cw) (lab y) (lab y')).
Definition ef_task (g : ef_crf) (cw : list Qc) : task ef_x (list nat) :=
  Task (fun x y => labelling (mrows (ex_features x)) (ef_states g) y)
       (fun x y => ok_or [] (ef_joint_feature g x (EDiscrete y)))
       (fun y y' => hamming (length y) (get1 cw) (lab y) (lab y')).
(** every subset of the labels; the loss counts the labels on which two subsets differ *)
Definition ml_task (m : ml_clf) : task (list Qc) (list nat) :=
  Task (fun _ y => labelling (ml_labels m) 2 y)
       (fun x y => ok_or [] (ml_joint_feature m x (MDiscrete y)))
       (fun y y' => hamming (length y) (fun _ => 1) (lab y) (lab y')).
(** weight vectors of EdgeFeatureGraphCRF that respect the declared symmetries *)
Definition ef_respecting (g : ef_crf) (w : list Qc) : Prop :=
  length w = ef_size g /\ respects_symmetry (ef_states g) (ef_features g) (ef_sym g) (ef_anti g) w.

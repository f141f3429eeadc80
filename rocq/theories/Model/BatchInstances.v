(** MultiClassClf and BinaryClf with their own batch methods (models/unstructured_svm.py). *)
From Coq Require Import ZArith.
From Verif Require Export Model.OneSlack Model.Instances.

(** the training set as a 2-d array *)
Definition rows_mat (F : nat) (Xs : list (list Qc)) : mat := Mat (length Xs) F Xs.

(** MultiClassClf, lines 235-251, 317-325, 331-332 *)
Definition mc_bmodel (m : mc_clf) : bmodel (list Qc) nat :=
  BModel (mc_smodel m)
    (fun Xs Ys Yt => mc_batch_joint_feature m (rows_mat (mc_features m) Xs) Ys Yt)
    (fun Xs Ys w => mc_batch_laug m (rows_mat (mc_features m) Xs) Ys w)
    (fun Ys Yh => mc_batch_loss m Ys Yh).
(** BinaryClf, lines 67-68, 126-127, 129-130; batch_joint_feature takes no third argument *)
Definition bc_bmodel (F : nat) : bmodel (list Qc) Z :=
  BModel (bc_smodel F)
    (fun Xs Ys Yt => match Yt with
                     | Some _ => Err TypeError
                     | None => bc_batch_joint_feature (rows_mat F Xs) Ys
                     end)
    (fun Xs Ys w => bc_batch_laug (rows_mat F Xs) Ys w)
    bc_batch_loss.

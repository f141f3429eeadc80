(** What SVM^multiclass is documented to do: minimise |w|^2 / 2 + c / n * sum of slacks, where a mistake costs 100;
    classes are 1 .. k; and its output, the best class followed by the score of every class. *)
From Verif Require Export Spec.TaskInstances Spec.SubgradientRateSpec Model.SvmStruct.

Definition svm_task (k F : nat) : task (list Qc) nat :=
  Task (fun _ y => (1 <= y <= k)%nat)
       (fun x y => class_feature 1 k F x (y - 1))
       (fun y y' => if (y =? y')%nat then 0 else ofN 100).
(** the weights [w] learned with parameter [c] are within [eps] of the minimum *)
Definition svm_minimal (k F : nat) (c : Qc) (S : list (list Qc * nat)) (w : list Qc) (eps : Qc) : Prop :=
  near_minimal (svm_task k F) (k * F) (c / ofN (length S)) S w eps.
Definition svm_line (k F : nat) (w x : list Qc) (line : list Qc) : Prop :=
  exists y, (1 <= y <= k)%nat /\ (forall y', (1 <= y' <= k)%nat -> class_score F w x (y' - 1) <= class_score F w x (y - 1)) /\
    line = ofN y :: tab1 k (class_score F w x).
Definition svm_classifies (sv : svm_multiclass) (k F : nat) : Prop :=
  forall w S, Forall2 (fun p line => svm_line k F w (fst p) line) S (sv_classify sv w S).

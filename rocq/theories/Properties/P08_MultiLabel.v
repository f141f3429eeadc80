(** C18 and the MultiLabelClf part of C02. *)
From Coq Require Import ZArith.
From Verif Require Import Model.MultiLabel Model.MaxProd Spec.LabelSpec Spec.LossSpec Spec.SolverSpec
  Proofs.MultiLabelProofs Proofs.MaxProdProofs.

(** C18. dot(w, joint_feature(x, y)) is the energy of y under the potentials given to
    inference, which is the signed sum of the labels' linear scores plus one table entry per
    edge; the joint feature has the announced size. *)
Theorem C18_score_linear :
  forall (m : ml_clf) (x : list Qc) (y : list nat) (w : list Qc),
    length x = ml_features m -> length w = ml_size m ->
    labelling (ml_labels m) 2 y -> graph_edges (ml_labels m) (ml_edges m) ->
    exists U P psi, ml_unary m x w = Ok U /\ ml_pairwise m w = Ok P /\
      ml_joint_feature m x (MDiscrete y) = Ok psi /\ length psi = ml_size m /\
      compute_energy U P (ml_edges m) y = Ok (dot w psi) /\
      dot w psi = score (ml_labels m) (ml_edges m) (label_unary (ml_features m) w x)
                        (label_pair (ml_labels m) (ml_features m) w) (lab y).
Proof. exact ml_score_linear. Qed.

(** Relaxed solutions: marginal-weighted score, as soon as the two marginals of a label sum
    to one (only the second column is read). *)
Theorem C18_relaxed_score_linear :
  forall (m : ml_clf) (x : list Qc) (yc pw : mat) (w : list Qc),
    length x = ml_features m -> length w = ml_size m ->
    mrows yc = ml_labels m -> mcols yc = 2%nat ->
    mat_ok pw -> mrows pw = length (ml_edges m) -> mcols pw = 4%nat ->
    exists psi, ml_joint_feature m x (MRelaxed yc pw) = Ok psi /\ length psi = ml_size m /\
      dot w psi =
        sumn (ml_labels m) (fun l => ((1 + 1) * mget yc l 1 - 1) * label_unary (ml_features m) w x l 1) +
        sumn (length (ml_edges m)) (fun e => sumn 2 (fun s => sumn 2 (fun t =>
          mget pw e (s * 2 + t) * label_pair (ml_labels m) (ml_features m) w e s t))) /\
      ((forall l, (l < ml_labels m)%nat -> mget yc l 0 + mget yc l 1 = 1) ->
       sumn (ml_labels m) (fun l => ((1 + 1) * mget yc l 1 - 1) * label_unary (ml_features m) w x l 1) =
       sumn (ml_labels m) (fun l => sumn 2 (fun s => mget yc l s * label_unary (ml_features m) w x l s))).
Proof. exact ml_relaxed_linear. Qed.

Theorem C18_inference_exact :
  forall (solve : solver) (m : ml_clf) (x w : list Qc),
    exact_on_tables solve (ml_labels m) (ml_edges m) -> graph_edges (ml_labels m) (ml_edges m) ->
    length x = ml_features m -> length w = ml_size m ->
    exists y psi, ml_inference solve m x w = Ok y /\ labelling (ml_labels m) 2 y /\
      ml_joint_feature m x (MDiscrete y) = Ok psi /\
      forall y' psi', labelling (ml_labels m) 2 y' -> ml_joint_feature m x (MDiscrete y') = Ok psi' ->
        dot w psi' <= dot w psi.
Proof. exact ml_inference_exact. Qed.

(** class_weight has one entry per label of the problem, but is indexed by the binary label
    values: with two labels or more loss-augmented inference is exact ... *)
Theorem C18_loss_augmented_inference_exact :
  forall (solve : solver) (m : ml_clf) (x : list Qc) (y : list nat) (w : list Qc),
    exact_on_tables solve (ml_labels m) (ml_edges m) -> graph_edges (ml_labels m) (ml_edges m) ->
    length x = ml_features m -> length w = ml_size m ->
    (2 <= ml_labels m)%nat -> labelling (ml_labels m) 2 y ->
    exists yh psi l, ml_loss_augmented_inference solve m x y w = Ok yh /\ labelling (ml_labels m) 2 yh /\
      ml_joint_feature m x (MDiscrete yh) = Ok psi /\ loss (Some (ml_class_weight m)) y yh = Ok l /\
      forall y' psi' l', labelling (ml_labels m) 2 y' -> ml_joint_feature m x (MDiscrete y') = Ok psi' ->
        loss (Some (ml_class_weight m)) y y' = Ok l' ->
        dot w psi' + l' <= dot w psi + l.
Proof. exact ml_loss_augmented_exact. Qed.

(** ... and with a single label it fails on every positive sample. *)
Theorem C18_single_label_fails :
  forall (m : ml_clf) (y : list nat) (x w : list Qc) (solve : solver),
    ml_labels m = 1%nat -> length w = ml_size m -> length x = ml_features m -> y = [1%nat] ->
    loss (Some (ml_class_weight m)) y y = Err IndexError /\
    ml_loss_augmented_inference solve m x y w = Err OutOfBounds.
Proof. exact ml_single_label. Qed.

(** C02: wrong sizes are rejected by inference; joint_feature checks nothing and follows the
    sizes of its arguments. *)
Theorem C02_multilabel_size_checks :
  forall (solve : solver) (m : ml_clf) (x w : list Qc) (y : list nat),
    (length w <> ml_size m -> ml_inference solve m x w = Err ValueError /\
                              ml_loss_augmented_inference solve m x y w = Err ValueError) /\
    (length x <> ml_features m -> ml_inference solve m x w = Err ValueError /\
                                  ml_loss_augmented_inference solve m x y w = Err ValueError).
Proof. exact ml_rejects. Qed.
Theorem C02_multilabel_joint_feature_unchecked :
  forall (m : ml_clf) (x : list Qc) (y : list nat) (psi : list Qc),
    ml_joint_feature m x (MDiscrete y) = Ok psi ->
    length psi = (length y * length x + 4 * length (ml_edges m))%nat.
Proof. exact ml_joint_unchecked. Qed.

(** ** Concrete cases *)
Definition ex8_m := ML 3 2 [(0, 1); (1, 2)]%nat.
Definition ex8_x := [1; Q2Qc 2].
Definition ex8_y := [1; 0; 1]%nat.
Definition ex8_w := [1; 0;  0; 1;  1; 1;   0; 1; Q2Qc 5; 0;   1; Q2Qc 7; 0; 0].
Definition ex8_solve : solver := fun U p e => inference_max_product U p e 30 (Q2Qc (1 # 2)) 0.
Example C18_hypotheses_met :
  length ex8_x = ml_features ex8_m /\ length ex8_w = ml_size ex8_m /\ labelling (ml_labels ex8_m) 2 ex8_y /\
  graph_edges (ml_labels ex8_m) (ml_edges ex8_m) /\ (2 <= ml_labels ex8_m)%nat /\
  exact_on_tables ex8_solve (ml_labels ex8_m) (ml_edges ex8_m).
Proof.
  do 5 (split; [repeat constructor|]). intros U p k HU Hr Hc Hp Hk.
  change (ml_edges ex8_m) with (chain_edges 3) in *. apply max_product_chain; auto; simpl; lia.
Qed.
(* 1 - 2 + 3 + 5 + 7 *)
Example C18_value : match ml_joint_feature ex8_m ex8_x (MDiscrete ex8_y) with
  | Ok psi => this (dot ex8_w psi) = 14%Q | Err _ => False end.
Proof. vm_compute. reflexivity. Qed.
Example C18_inference_value : ml_inference ex8_solve ex8_m ex8_x ex8_w = Ok [1; 0; 1]%nat /\
  ml_loss_augmented_inference ex8_solve ex8_m ex8_x [0; 1; 0]%nat ex8_w = Ok [1; 0; 1]%nat.
Proof. vm_compute. auto. Qed.
Example C18_relaxed_met :
  mrows (mtab 3 2 (fun _ _ => Q2Qc (1 # 2))) = ml_labels ex8_m /\ mat_ok (mtab 2 4 (fun _ _ => Q2Qc (1 # 4))) /\
  mrows (mtab 2 4 (fun _ _ => Q2Qc (1 # 4))) = length (ml_edges ex8_m).
Proof. split; [reflexivity|]. split; [|reflexivity]. split; [reflexivity|repeat constructor]. Qed.
Example C18_single_met : length [1; 1] = ml_size (ML 1 2 []).
Proof. reflexivity. Qed.

Print Assumptions C18_score_linear.
Print Assumptions C18_relaxed_score_linear.
Print Assumptions C18_inference_exact.
Print Assumptions C18_loss_augmented_inference_exact.
Print Assumptions C18_single_label_fails.
Print Assumptions C02_multilabel_size_checks.
Print Assumptions C02_multilabel_joint_feature_unchecked.

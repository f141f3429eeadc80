(** C83. Binary, two-class and multi-label classifiers solve the same problem. *)
From Coq Require Import ZArith.
From Verif Require Import Model.BatchInstances Model.MoreInstances Model.NSlack Model.Inference Spec.BinarySpec Spec.SolverSpec Spec.QPSpec Spec.NSlackSpec Spec.SpanSpec Spec.CuttingPlaneSpec
  Proofs.Binary Proofs.Binary2.

(** The structured hinge loss of BinaryClf is the hinge loss of a linear classifier ... *)
Theorem C83_binary_hinge : forall F w x y h, binary_sample F (x, y) ->
  (is_hinge bc_task w x y h <-> h = binary_hinge w x y).
Proof. exact bc_hinge. Qed.
(** ... that of a MultiClassClf with two classes is the one of the difference of the two weight vectors ... *)
Theorem C83_two_class_hinge : forall c, c 0%nat = 1 /\ c 1%nat = 1 -> forall F w x s h,
  length x = F -> length w = (2 * F)%nat -> (s < 2)%nat ->
  (is_hinge (mc_task 2 F c) w x s h <-> h = binary_hinge (vsub (block F w 1) (block F w 0)) x (label_of s)).
Proof. exact mc2_hinge. Qed.
(** ... and that of a MultiLabelClf without edges is the sum over the labels, each with twice its weight vector. *)
Theorem C83_label_hinge : forall F L w x y h, length x = F -> length w = (L * F)%nat -> Energy.labelling L 2 y ->
  (is_hinge (ml_task (ML L F [])) w x y h <->
   h = sumn L (fun l => binary_hinge (vscale (1 + 1) (block F w l)) x (label_of (lab y l)))).
Proof. exact ml_hinge_ok. Qed.

(** Training a two-class MultiClassClf with C is training a BinaryClf with 2 C: the difference of the class weights is as good
    for the binary problem, ... *)
Theorem C83_two_classes_to_binary : forall c, c 0%nat = 1 /\ c 1%nat = 1 -> forall F C S w e,
  Forall (binary_sample F) S -> near_minimal (mc_task 2 F c) (2 * F) C (two_classes S) w e ->
  near_minimal bc_task F (C + C) S (vsub (block F w 1) (block F w 0)) (e + e).
Proof. exact two_classes_to_binary. Qed.
(** ... binary weights u give class weights -u/2 and u/2, ... *)
Theorem C83_binary_to_two_classes : forall c, c 0%nat = 1 /\ c 1%nat = 1 -> forall F C S u e,
  Forall (binary_sample F) S -> near_minimal bc_task F (C + C) S u e ->
  near_minimal (mc_task 2 F c) (2 * F) C (two_classes S) (opposite F u) (e / (1 + 1)).
Proof. exact binary_to_two_classes. Qed.
(** ... the two class weights nearly cancel, and are exactly opposite at the minimum, ... *)
Theorem C83_two_classes_balanced : forall c, c 0%nat = 1 /\ c 1%nat = 1 -> forall F C S w e,
  Forall (binary_sample F) S -> near_minimal (mc_task 2 F c) (2 * F) C (two_classes S) w e ->
  normsq (vadd (block F w 0) (block F w 1)) <= ofN 4 * e.
Proof. exact two_classes_balanced. Qed.
(** ... and weights learned with the two models, by whichever learners, are close. *)
Theorem C83_two_classes_close : forall F C S w u e g, 0 <= C -> Forall (binary_sample F) S ->
  near_minimal (mc_task 2 F (get1 [1; 1])) (2 * F) C (two_classes S) w e -> near_minimal bc_task F (C + C) S u g ->
  normsq (vsub w (opposite F u)) <= ofN 4 * (e + g / (1 + 1)).
Proof. exact two_class_close. Qed.
(** The predictions agree off the decision boundary; on it the two-class model says class 0, i.e. -1, the binary one +1. *)
Theorem C83_two_classes_predict : forall m F x w, mc_states m = 2%nat -> mc_features m = F -> length x = F -> length w = (2 * F)%nat ->
  exists s y, mc_inference m x w = Ok s /\ bc_inference x (vsub (block F w 1) (block F w 0)) = Ok y /\
    ((dot (block F w 0) x <> dot (block F w 1) x /\ s = class_of y /\ y = label_of s) \/
     (dot (block F w 0) x = dot (block F w 1) x /\ s = 0%nat /\ y = 1%Z)).
Proof. exact two_class_predicts. Qed.

(** Training a MultiLabelClf without edges with C is training one BinaryClf per label with 4 C, up to a factor of 2 in the weights. *)
Theorem C83_labels_to_binary : forall F L C S w e l, Forall (multi_sample F L) S ->
  near_minimal (ml_task (ML L F [])) (ml_size (ML L F [])) C S w e -> (l < L)%nat ->
  near_minimal bc_task F (ofN 4 * C) (one_label l S) (vscale (1 + 1) (block F w l)) (ofN 4 * e).
Proof. exact labels_near. Qed.
Theorem C83_binary_to_labels : forall F L C S w e, Forall (multi_sample F L) S -> length w = (L * F)%nat ->
  (forall l, (l < L)%nat -> near_minimal bc_task F (ofN 4 * C) (one_label l S) (vscale (1 + 1) (block F w l)) (ofN 4 * e l)) ->
  near_minimal (ml_task (ML L F [])) (ml_size (ML L F [])) C S w (sumn L e).
Proof. exact near_labels. Qed.
Theorem C83_labels_n_slack :
  forall inf L F solve prm (Xs : list (list Qc)) (Ys : list (list nat)) old st curve primal reason,
    (2 <= L)%nat -> exact_on_tables inf L [] -> length Xs = length Ys -> Forall (multi_sample F L) (combine Xs Ys) ->
    0 <= ns_C prm -> ns_window prm = O -> ns_neg prm = None -> ns_tol prm <= 0 -> qp_exact solve ->
    answers_all solve (ns_C prm) (length Xs) (ml_task (ML L F [])) (combine Xs Ys) ->
    (list_sum (map (fun _ => 2 ^ L) Xs) < ns_max_iter prm)%nat ->
    ns_fit labels_eqb solve prm (ml_smodel inf (ML L F [])) None Xs Ys None old = Ok (st, curve, primal, reason) ->
    forall l, (l < L)%nat ->
      near_minimal bc_task F (ofN 4 * ns_C prm) (one_label l (combine Xs Ys)) (vscale (1 + 1) (block F (st_w st) l))
                   (ofN 4 * n_gap (ns_C prm) (length Xs)).
Proof. exact labels_n_slack. Qed.
(** Prediction without edges decides label by label, with the sign of its score; only labels of score 0 depend on the solver. *)
Theorem C83_labels_predict : forall F L solve x w, exact_on_tables solve L [] -> length x = F -> length w = (L * F)%nat ->
  exists y, ml_inference solve (ML L F []) x w = Ok y /\ Energy.labelling L 2 y /\
    forall l, (l < L)%nat -> (0 < dot (block F w l) x -> lab y l = 1%nat) /\ (dot (block F w l) x < 0 -> lab y l = 0%nat).
Proof. exact ml_predicts. Qed.

(** inference_method='unary' is exact without edges and leaves labels of score 0 out. *)
Theorem C83_unary_method : forall F L x w, exact_on_tables inference_unaries L [] /\
  (length x = F -> length w = (L * F)%nat ->
   exists y, ml_inference inference_unaries (ML L F []) x w = Ok y /\ Energy.labelling L 2 y /\
     forall l, (l < L)%nat -> (lab y l = 1%nat <-> 0 < dot (block F w l) x)).
Proof. exact (fun F L x w => conj (unary_exact L) (unary_predicts F L x w)). Qed.

(** The hypotheses are met: one input [1], C = 1/16, labels {0}; the binary minima are 1/4 and -1/4. *)
Example C83_labels_met : Forall (multi_sample 1 2) [([1], [1; 0]%nat)] /\
  near_minimal (ml_task (ML 2 1 [])) 2 (Q2Qc (1 # 16)) [([1], [1; 0]%nat)] [Q2Qc (1 # 8); - Q2Qc (1 # 8)] 0.
Proof. exact ex44_labels. Qed.
Example C83_binary_met : forall y, y = 1%Z \/ y = (-1)%Z -> near_minimal bc_task 1 (Q2Qc (1 # 4)) [([1], y)] (vscale (ofZ y) [Q2Qc (1 # 4)]) 0.
Proof. exact ex44_min. Qed.
Example C83_classes_met : near_minimal (mc_task 2 1 (get1 [1; 1])) 2 (Q2Qc (1 # 8)) [([1], 1%nat)] [- Q2Qc (1 # 8); Q2Qc (1 # 8)] 0.
Proof. exact ex44_classes. Qed.

Print Assumptions C83_binary_hinge.
Print Assumptions C83_two_class_hinge.
Print Assumptions C83_label_hinge.
Print Assumptions C83_two_classes_to_binary.
Print Assumptions C83_binary_to_two_classes.
Print Assumptions C83_two_classes_balanced.
Print Assumptions C83_two_classes_close.
Print Assumptions C83_two_classes_predict.
Print Assumptions C83_labels_to_binary.
Print Assumptions C83_binary_to_labels.
Print Assumptions C83_labels_n_slack.
Print Assumptions C83_labels_predict.
Print Assumptions C83_unary_method.

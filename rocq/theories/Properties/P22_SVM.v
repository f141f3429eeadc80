(** C61: the binary SVM of learners/svm.py. *)
From Verif Require Import Model.SVM Spec.QPSpec Spec.SVMSpec Proofs.Arrays Proofs.SVMProofs Proofs.SVMProofs2.

(** C61. The quadratic program handed to the solver is the dual of the soft-margin problem. *)
Theorem C61_problem :
  forall n d X y C, svm_data n d X y -> exists p, svm_problem X y C = Ok p /\
    (forall a, qp_feasible p a <-> dual_feasible C X y a) /\
    (forall a, length a = n -> qp_value p a = - dual_objective X y a).
Proof. exact svm_problem_ok. Qed.
Theorem C61_weak_duality :
  forall C n d X y a w b, svm_data n d X y -> dual_feasible C X y a -> length w = d ->
    dual_objective X y a <= svm_objective C X y w b.
Proof. exact svm_weak_duality. Qed.
(** C61. Training with a solver that returns an optimum in which every multiplier is 0 or above the threshold 1e-5, and
    some point lies on the margin: the weights, together with the intercept of any margin point, minimise the soft-margin
    objective; the stored intercept is that intercept plus the mean over the support vectors of label times slack. *)
Theorem C61_fit :
  forall solve C n d X y a p, svm_data n d X y -> svm_problem X y C = Ok p -> solve p = Ok a -> length a = n ->
    (forall i, (i < n)%nat -> get1 a i = 0 \/ sv_tol < get1 a i) ->
    forall m, qp_optimal p a -> (m < n)%nat -> 0 < get1 a m < C ->
    exists s, svm_fit solve C X y = Ok s /\ svm_w s = dual_weights X y a /\
      svm_minimises C X y (svm_w s) (get1 y m - dot (svm_w s) (point X m)) /\
      svm_b s = (get1 y m - dot (svm_w s) (point X m)) +
        (let support := filter (fun i => Qcltb sv_tol (get1 a i)) (seq 0 n) in
         lsum (map (fun i => get1 y i * slack X y (svm_w s) (get1 y m - dot (svm_w s) (point X m)) i) support) / ofN (length support)).
Proof. exact fit_intercept. Qed.
(** C61. If moreover no multiplier reaches C, weights and intercept minimise the objective. *)
Theorem C61_no_bounded_support_vector :
  forall solve C n d X y a p, svm_data n d X y -> svm_problem X y C = Ok p -> solve p = Ok a -> length a = n ->
    (forall i, (i < n)%nat -> get1 a i = 0 \/ sv_tol < get1 a i) ->
    forall m, qp_optimal p a -> (m < n)%nat -> 0 < get1 a m -> (forall i, (i < n)%nat -> get1 a i < C) ->
    exists s, svm_fit solve C X y = Ok s /\ svm_minimises C X y (svm_w s) (svm_b s).
Proof. exact fit_margin_only. Qed.
(** C61. With bounded support vectors the stored intercept is wrong: the objective is not minimal and a point on the
    negative side of the optimal hyperplane is predicted positive. *)
Theorem C61_intercept_refuted :
  (exists p, svm_problem ex22_X ex22_y (ofZ 2) = Ok p /\ qp_optimal p ex22_a) /\
  exists s, svm_fit (fun _ => Ok ex22_a) (ofZ 2) ex22_X ex22_y = Ok s /\
    svm_minimises (ofZ 2) ex22_X ex22_y (svm_w s) (- (1)) /\
    svm_objective (ofZ 2) ex22_X ex22_y (svm_w s) (- (1)) + 1 < svm_objective (ofZ 2) ex22_X ex22_y (svm_w s) (svm_b s) /\
    svm_predict s (Mat 1 1 [[Q2Qc (1 # 2)]]) = Ok [1] /\ dot (svm_w s) [Q2Qc (1 # 2)] - 1 < 0.
Proof. exact ex22_intercept_wrong. Qed.
(** C61. Training data of a single class: whatever feasible point the solver returns, fit divides by zero. *)
Theorem C61_one_class :
  forall solve C n d X y c, svm_data n d X y -> (forall i, (i < n)%nat -> get1 y i = c) ->
    (forall q x, solve q = Ok x -> qp_feasible q x) -> (exists p a, svm_problem X y C = Ok p /\ solve p = Ok a) ->
    svm_fit solve C X y = Err ZeroDivisionError.
Proof. exact fit_one_class. Qed.
Theorem C61_rejects : forall solve C X y, length y <> mrows X -> svm_fit solve C X y = Err ValueError.
Proof. intros solve C X y H. unfold svm_fit, svm_problem. apply Nat.eqb_neq in H. now rewrite H. Qed.
(** C61. Predictions are the signs of the decision values; on the hyperplane the prediction is 0, which is no label. *)
Theorem C61_predict :
  forall s X r, svm_predict s X = Ok r -> length r = length (mdat X) /\
    forall i, (i < length (mdat X))%nat ->
      (0 < dot (point X i) (svm_w s) + svm_b s -> get1 r i = 1) /\
      (dot (point X i) (svm_w s) + svm_b s < 0 -> get1 r i = - (1)) /\
      (dot (point X i) (svm_w s) + svm_b s = 0 -> get1 r i = 0).
Proof. exact predict_sign. Qed.

(** The hypotheses are met by two points on the margin, and by the four points of C61_intercept_refuted. *)
Example C61_two_points_met : svm_data 2 1 ex22_X2 ex22_y2 /\
  (exists p, svm_problem ex22_X2 ex22_y2 1 = Ok p /\ qp_optimal p ex22_a2) /\
  (forall i, (i < 2)%nat -> sv_tol < get1 ex22_a2 i) /\ (forall i, (i < 2)%nat -> 0 < get1 ex22_a2 i < 1).
Proof. exact ex22_two. Qed.
Example C61_two_points_value :
  match svm_fit (fun _ => Ok ex22_a2) 1 ex22_X2 ex22_y2 with
  | Ok s => (map this (svm_w s), this (svm_b s), match svm_predict s (Mat 3 1 [[ofZ 3]; [1]; [0]]) with Ok r => map this r | _ => [] end)
  | _ => ([], 0%Q, []) end = ([1%Q], (-1 # 1)%Q, [1%Q; 0%Q; (-1 # 1)%Q]).
Proof. vm_compute. reflexivity. Qed.
Example C61_four_points_met : svm_data 4 1 ex22_X ex22_y /\ dual_feasible (ofZ 2) ex22_X ex22_y ex22_a.
Proof. split; [exact ex22_data|exact ex22_feasible]. Qed.
Example C61_one_class_met :
  svm_data 2 1 ex22_X2 [1; 1] /\ exists p, svm_problem ex22_X2 [1; 1] 1 = Ok p /\ qp_feasible p [0; 0].
Proof.
  assert (D : svm_data 2 1 ex22_X2 [1; 1]).
  { split; [apply mat_okb_ok; reflexivity|]. repeat split. intros i Hi. do 2 (destruct i as [|i]; [unfold get1; cbn [nth]; auto|]). lia. }
  split; [exact D|]. destruct (svm_problem_ok 2 1 ex22_X2 [1; 1] 1 D) as (p & E & HF & _). exists p. split; [exact E|].
  apply HF. split; [reflexivity|]. split.
  - intros i Hi. cbn [mrows ex22_X2] in Hi. do 2 (destruct i as [|i]; [split; vm_compute; discriminate|]). lia.
  - apply Qc_is_canon. vm_compute. reflexivity.
Qed.

Print Assumptions C61_problem.
Print Assumptions C61_weak_duality.
Print Assumptions C61_fit.
Print Assumptions C61_no_bounded_support_vector.
Print Assumptions C61_intercept_refuted.
Print Assumptions C61_one_class.
Print Assumptions C61_rejects.
Print Assumptions C61_predict.

(** C90: examples/multiclass_comparision_svm_struct.py compares like with like.  If SVM^multiclass minimises what it is
    documented to minimise, then with the parameter C * 100 * len(X) it solves the problem of OneSlackSSVM with
    MultiClassClf and C: its weights are 100 times as large, and predict the same classes. *)
From Verif Require Import Spec.NSlackSpec Spec.SvmStructSpec Model.Unstructured Model.Instances Proofs.SvmStruct Proofs.SvmStructExamples.

Theorem C90_same_problem k F C S w e : S <> [] -> Forall (fun p => (snd p < k)%nat) S ->
  (svm_minimal k F (C * ofN 100 * ofN (length S)) (map (fun p => (fst p, Datatypes.S (snd p))) S) w e <->
   near_minimal (mc_task k F (fun _ => 1)) (k * F) C S (vscale (/ ofN 100) w) (e / (ofN 100 * ofN 100))).
Proof. exact (svm_same k F C S w e). Qed.
(** [fit]: what the program is asked for, and what it returns. *)
Theorem C90_fit sv k F C X y w e : X <> [] -> length X = length y -> Forall (fun s => (s < k)%nat) y -> ms_fit sv C X y = Ok w ->
  svm_minimal k F (C * ofN 100 * ofN (length X)) (combine X (map S y)) (sv_learn sv (C * ofN 100 * ofN (length X)) (combine X (map S y))) e ->
  near_minimal (mc_task k F (fun _ => 1)) (k * F) C (combine X y) (vscale (/ ofN 100) w) (e / (ofN 100 * ofN 100)).
Proof. exact (svm_fit sv k F C X y w e). Qed.
Theorem C90_fit_call sv C X y : ms_fit sv C X y =
  if (length X =? length y)%nat then Ok (sv_learn sv (C * ofN 100 * ofN (length X)) (combine X (map S y))) else Err ValueError.
Proof. unfold ms_fit. destruct (length X =? length y)%nat; reflexivity. Qed.
(** The weights of the two programs, each within some error of the minimum, are close. *)
Theorem C90_close k F C S w v e1 e2 : 0 <= C -> S <> [] -> Forall (fun p => length (fst p) = F /\ (snd p < k)%nat) S ->
  svm_minimal k F (C * ofN 100 * ofN (length S)) (map (fun p => (fst p, Datatypes.S (snd p))) S) w e1 ->
  near_minimal (mc_task k F (fun _ => 1)) (k * F) C S v e2 ->
  normsq (vsub (vscale (/ ofN 100) w) v) <= ofN 4 * (e1 / (ofN 100 * ofN 100) + e2).
Proof. exact (svm_close k F C S w v e1 e2). Qed.
Example C90_met : svm_minimal 2 1 (1 * ofN 100 * ofN 1) (map (fun p => (fst p, Datatypes.S (snd p))) ex51_S) ex51_w 0 /\
  ms_fit ex51_sv 1 [[1]] [0%nat] = Ok ex51_w /\ vscale (/ ofN 100) ex51_w = ex51_v /\ near_minimal (mc_task 2 1 (fun _ => 1)) 2 1 ex51_S ex51_v 0.
Proof.
  split; [|split; [reflexivity|split; [exact ex51_scaled|exact ex51_minimal]]].
  apply (C90_same_problem 2 1 1 ex51_S ex51_w 0).
  - discriminate.
  - constructor; [cbn; auto|constructor].
  - rewrite ex51_scaled. exact ex51_minimal.
Qed.

(** [predict] and [decision_function], for two samples or more: a class with the best score for every sample, counted
    from 0 again, and the scores of the classes. *)
Theorem C90_predict sv k F w : svm_classifies sv k F -> (0 < k)%nat -> forall X, (2 <= length X)%nat ->
  exists cls, ms_predict sv w X = Ok (map ofN cls) /\
  Forall2 (fun x s => (s < k)%nat /\ forall t, (t < k)%nat -> class_score F w x t <= class_score F w x s) X cls /\
  ms_decision_function sv w X = Ok (map (fun x => tab1 k (class_score F w x)) X).
Proof. exact (predict_spec sv k F w). Qed.
(** For a single sample numpy.loadtxt gives a 1-d array and both raise IndexError; so does predict without samples. *)
Theorem C90_predict_single_refuted sv k F w : svm_classifies sv k F ->
  (forall x, ms_predict sv w [x] = Err IndexError /\ ms_decision_function sv w [x] = Err IndexError) /\ ms_predict sv w [] = Err IndexError.
Proof. exact (fun H => conj (predict_single sv k F w H) (predict_none sv k F w H)). Qed.
Theorem C90_score sv k F w : svm_classifies sv k F -> (0 < k)%nat -> forall X y, (2 <= length X)%nat -> length y = length X ->
  exists cls, ms_predict sv w X = Ok (map ofN cls) /\ length cls = length X /\
  ms_score sv w X y = Ok (ofN (length (filter (fun q => fst q =? snd q)%nat (combine y cls))) / ofN (length X)).
Proof. exact (score_spec sv k F w). Qed.
(** Where one class is best, MultiClassClf with the weights divided by 100 predicts the same. *)
Theorem C90_same_prediction sv k F w : svm_classifies sv k F -> (0 < k)%nat -> forall X i s,
  (2 <= length X)%nat -> (i < length X)%nat -> length (nth i X []) = F -> length w = (k * F)%nat -> (s < k)%nat ->
  (forall t, (t < k)%nat -> t <> s -> class_score F w (nth i X []) t < class_score F w (nth i X []) s) ->
  (exists ps, ms_predict sv w X = Ok ps /\ length ps = length X /\ nth i ps 0 = ofN s) /\
  mc_inference (MC k F (repeat 1 k) true false) (nth i X []) (vscale (/ ofN 100) w) = Ok s.
Proof. exact (same_prediction sv k F w). Qed.
Example C90_predict_met : svm_classifies ex51_sv 2 1 /\
  match ms_predict ex51_sv ex51_w [[1]; [- (1)]] with Ok ps => map this ps = [0; 1]%Q | Err _ => False end /\
  match ms_score ex51_sv ex51_w [[1]; [- (1)]] [0; 0]%nat with Ok q => this q = (1 # 2)%Q | Err _ => False end /\
  mc_inference (MC 2 1 (repeat 1 2) true false) [- (1)] ex51_v = Ok 1%nat.
Proof. split; [exact ex51_classifies|]. vm_compute. repeat split. Qed.
Print Assumptions C90_same_problem.
Print Assumptions C90_fit.
Print Assumptions C90_fit_call.
Print Assumptions C90_close.
Print Assumptions C90_predict.
Print Assumptions C90_predict_single_refuted.
Print Assumptions C90_score.
Print Assumptions C90_same_prediction.

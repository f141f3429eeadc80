(** C88: inference that is not exact.  Every guarantee of the learners degrades by the error of the oracle, and by no more. *)
From Coq Require Import ZArith.
From Verif Require Import Model.NSlack Model.OneSlack Model.FrankWolfe Model.Perceptron Model.Inference Model.Instances Spec.TaskInstances Spec.FrankWolfeSpec Spec.GraphSpec
  Spec.InferenceSpec Spec.SolverSpec Spec.NearSpec Proofs.Arrays Proofs.GraphCRFProofs Proofs.NSlackExamples Proofs.OneSlackExamples Proofs.FrankWolfeProofs4
  Proofs.Near Proofs.Near2 Proofs.Near3 Proofs.NearExamples.

(** ** exact oracles are those without error *)
Theorem C88_exact_is_zero_error :
  forall (X Y : Type) (m : smodel X Y) T d S,
    (oracle_exact m T d S <-> oracle_near 0 m T d S) /\ (infers_exactly m T d S <-> infers_near 0 m T d S).
Proof. intros X Y m T d S. exact (conj (exact_near m T d S) (near_exact_infers m T d S)). Qed.

(** ** n-slack and one-slack learners *)
Theorem C88_n_slack :
  forall (X Y : Type) (T : task X Y) d yeq solve prm eps Xs Ys, 0 <= ns_C prm -> length Xs = length Ys ->
  forall m sw old st curve primal, qp_exact solve -> ns_neg prm = None -> sm_size m = d ->
    oracle_near eps m T d (combine Xs Ys) -> (forall m', sw = Some m' -> oracle_near eps m' T d (combine Xs Ys)) ->
    yeq_ok T yeq (combine Xs Ys) -> zero_loss_same T (combine Xs Ys) ->
    ns_fit yeq solve prm m sw Xs Ys None old = Ok (st, curve, primal, NoNewConstraint) ->
    forall hs w' hs', hinges T (st_w st) (combine Xs Ys) hs -> length w' = d -> hinges T w' (combine Xs Ys) hs' ->
      primal_value (ns_C prm) (st_w st) hs <= primal_value (ns_C prm) w' hs' +
        ns_C prm * (ofN (length Xs) * (small + eps)) + qp_reg * (ofN (length Xs) * (ns_C prm * ns_C prm)).
Proof. intros X Y. exact n_slack_near. Qed.
(** Cold starts and warm starts after a fit.  The last entry of primal_objective_curve_ is a lower bound of the true objective, off by at most C n eps. *)
Theorem C88_one_slack :
  forall (X Y : Type) (T : task X Y) d ceq solve prm eps Xs Ys, 0 <= eps ->
  forall ws bm sw st, (0 < length Xs)%nat -> 0 <= o_C prm -> 0 <= o_tol prm -> qp_sound solve ->
    batch_near eps bm T d Xs Ys -> (o_cache prm = O \/ sm_rescale (bm_s bm) = false) ->
    (forall b, sw = Some b -> batch_near eps b T d Xs Ys /\ (o_cache prm = O \/ sm_rescale (bm_s b) = false)) ->
    match ws with Cold => True | Soft _ => False | Warm a => resumable T d Xs Ys a end ->
    os_fit ceq solve prm bm sw Xs Ys ws = Ok (st, OSNoConstraint) ->
    forall hs, hinges T (o_w st) (combine Xs Ys) hs ->
      last (o_primal st) 0 <= primal_value (o_C prm) (o_w st) hs /\
      primal_value (o_C prm) (o_w st) hs <= last (o_primal st) 0 + o_C prm * ofN (length Xs) * eps /\
      (qp_exact solve -> o_neg prm = None -> In (vzero d, 0) (o_cons st) ->
       forall w' hs', length w' = d -> hinges T w' (combine Xs Ys) hs' ->
         primal_value (o_C prm) (o_w st) hs <= primal_value (o_C prm) w' hs' +
           o_C prm * ofN (length Xs) * (o_tol prm + eps) + qp_reg * (o_C prm * ofN (length Xs) * (o_C prm * ofN (length Xs)))).
Proof.
  intros X Y T d ceq solve prm eps Xs Ys HE ws bm sw st H1 H2 H3 H4 H5 H6 H7 HW. apply (one_slack_near T d ceq solve prm eps Xs Ys HE ws bm sw st H1 H2 H3 H4 H5 H6 H7).
  destruct ws; [exact I|contradiction|exact HW].
Qed.

(** ** what the learners report: the objective, the duality gap *)
Theorem C88_objective :
  forall (X Y : Type) (T : task X Y) d eps (m : smodel X Y) w Xs Ys C v hs,
    length Xs = length Ys -> Xs <> [] -> length w = d -> 0 <= eps -> 0 <= C ->
    oracle_near eps m T d (combine Xs Ys) -> hinges T w (combine Xs Ys) hs ->
    exists r, objective_primal m w Xs Ys C v = Ok r /\ r <= primal_value C w hs /\ primal_value C w hs <= r + C * ofN (length Xs) * eps.
Proof. intros X Y. exact objective_near. Qed.
Theorem C88_dual_gap :
  forall (X Y : Type) (T : task X Y) d eps Xs Ys C (bm : bmodel X Y) w l hs,
    (0 < length Xs)%nat -> 0 <= C -> fw_usable T d Xs Ys bm -> batch_near eps bm T d Xs Ys -> length w = d -> hinges T w (combine Xs Ys) hs ->
    exists P, calc_dual_gap C bm Xs Ys w l = Ok (dual_objective C (length Xs) w l, P - dual_objective C (length Xs) w l, P) /\
      P <= primal_value C w hs /\ primal_value C w hs <= P + C * ofN (length Xs) * eps.
Proof. intros X Y. exact gap_near. Qed.
Theorem C88_frank_wolfe :
  forall (X Y : Type) (T : task X Y) d eps Xs Ys prm (bm : bmodel X Y) sched w l p P o c D,
    (0 < length Xs)%nat -> 0 <= fw_C prm -> fw_usable T d Xs Ys bm -> batch_near eps bm T d Xs Ys -> fw_batch prm = false ->
    fw_fit prm bm Xs Ys sched None = Ok (w, l, (p ++ [P; o])%list, (c ++ [D; D])%list) -> P - D < fw_tol prm ->
    forall hs, hinges T w (combine Xs Ys) hs ->
      P <= primal_value (fw_C prm) w hs /\ primal_value (fw_C prm) w hs <= P + fw_C prm * ofN (length Xs) * eps /\
      forall w' hs', length w' = d -> hinges T w' (combine Xs Ys) hs' ->
        primal_value (fw_C prm) w hs <= primal_value (fw_C prm) w' hs' + fw_tol prm + fw_C prm * ofN (length Xs) * eps.
Proof. intros X Y. exact fw_certificate_near. Qed.
(** The error cannot be left out: with an oracle off by 1, FrankWolfeSSVM reports gap zero on weights that are not within
    its tolerance of the optimum. *)
Theorem C88_certificate_without_error_refuted :
  exists (bm : bmodel (list Qc) nat) T Xs Ys prm sched w l p c w',
    (0 < length Xs)%nat /\ 0 <= fw_C prm /\ fw_usable T 2 Xs Ys bm /\ batch_near 1 bm T 2 Xs Ys /\ fw_batch prm = false /\
    fw_fit prm bm Xs Ys sched None = Ok (w, l, p, c) /\ p = [0; 0] /\ c = [0; 0] /\ 0 - 0 < fw_tol prm /\
    length w' = 2%nat /\ exists hs hs', hinges T w (combine Xs Ys) hs /\ hinges T w' (combine Xs Ys) hs' /\
      primal_value (fw_C prm) w' hs' + fw_tol prm < primal_value (fw_C prm) w hs.
Proof.
  destruct ex49_fw_run as [w [l [p [c [E [-> [-> ->]]]]]]]. destruct (ex49_near 1 ltac:(discriminate)) as [_ [B F]].
  exists (ex49_bm 1), ex9_task, ex9_X, ex9_Y, ex49_fw, ex11_sched, [0; 0], l, [0; 0], [0; 0], [half; - half].
  split; [apply Nat.lt_0_1|]. split; [discriminate|]. split; [exact F|]. split; [exact B|]. split; [reflexivity|]. split; [exact E|].
  split; [reflexivity|]. split; [reflexivity|]. split; [reflexivity|]. split; [reflexivity|].
  exists [1], [0]. split; [exact FWRate6.ex29_zero|]. split; [exact ex49_half_hinge|]. vm_compute. reflexivity.
Qed.

(** ** the structured perceptron, online with constant rate *)
Theorem C88_perceptron :
  forall (X Y : Type) eps (m : smodel X Y) (T : task X Y) d S prm mloss old mls u g R2,
    computes m T d S -> infers_near eps m T d S ->
    sm_size m = d -> pc_decay prm = 0%Z -> pc_batch prm = false -> average_ok prm -> mapM (fun p => mloss (snd p)) S = Ok mls ->
    length u = d -> 0 < g -> 0 <= R2 -> 0 <= eps -> Forall (separates T u g) S -> Forall (wrong_within T R2) S ->
    exists L Es, pc_fit prm m mloss old S = (L, None) /\ epochs prm m T S 0 (vzero d) Es /\ pl_curve L = Some (map (entry T (lsum mls)) Es) /\
      ofN (all_mistakes T Es) * (g * g) <= (R2 + (1 + 1) * eps) * normsq u.
Proof. intros X Y. exact near_perceptron. Qed.
Theorem C88_perceptron_converges :
  forall (X Y : Type) eps (m : smodel X Y) (T : task X Y) d S prm mloss old mls u g R2,
    computes m T d S -> infers_near eps m T d S ->
    sm_size m = d -> pc_decay prm = 0%Z -> pc_batch prm = false -> average_ok prm -> mapM (fun p => mloss (snd p)) S = Ok mls -> lsum mls <> 0 ->
    length u = d -> 0 < g -> 0 <= R2 -> 0 <= eps -> Forall (separates T u g) S -> Forall (wrong_within T R2) S ->
    (R2 + (1 + 1) * eps) * normsq u < ofN (pc_max_iter prm) * (g * g) ->
    exists L c, pc_fit prm m mloss old S = (L, None) /\ pl_curve L = Some c /\ c <> [] /\ last c None = Some 0 /\
      ofN (length c - 1) * (g * g) <= (R2 + (1 + 1) * eps) * normsq u /\
      (pc_avg prm = NoAverage -> fits m T S (pl_w L)).
Proof. intros X Y. exact near_converges. Qed.
(** The bound for exact inference does not hold for inexact inference. *)
Theorem C88_perceptron_without_error_refuted :
  exists (m : smodel (list Qc) nat) T S prm u g R2 Es eps,
    computes m T 2 S /\ infers_near eps m T 2 S /\ pc_decay prm = 0%Z /\ pc_batch prm = false /\ length u = 2%nat /\ 0 < g /\ 0 <= R2 /\
    Forall (separates T u g) S /\ Forall (wrong_within T R2) S /\ epochs prm m T S 0 (vzero 2) Es /\
    R2 * normsq u < ofN (all_mistakes T Es) * (g * g).
Proof.
  exists (ex49_infer three), ex9_task, (combine ex9_X ex9_Y), ex49_pc, [1; - (1)], (1 + 1), (1 + 1), ex49_Es, three.
  split; [apply ex49_computes|]. split; [apply ex49_infers; discriminate|]. split; [reflexivity|]. split; [reflexivity|]. split; [reflexivity|].
  split; [reflexivity|]. split; [discriminate|]. split; [apply ex49_separates|]. split; [apply ex49_separates|]. split; [apply ex49_epochs|].
  rewrite (proj2 ex49_epochs). vm_compute. reflexivity.
Qed.

(** ** predictions *)
(** The hinge loss bounds the loss of the prediction up to the error, and a margin above the error makes predictions right. *)
Theorem C88_prediction_loss :
  forall (X Y : Type) eps (m : smodel X Y) T d S p w h,
    infers_near eps m T d S -> In p S -> length w = d -> t_label T (fst p) (snd p) -> is_hinge T w (fst p) (snd p) h ->
    exists yp, sm_inference m (fst p) w = Ok yp /\ t_label T (fst p) yp /\ t_loss T (snd p) yp <= h + eps.
Proof. intros X Y. exact near_prediction. Qed.
Theorem C88_margin_above_error :
  forall (X Y : Type) eps (m : smodel X Y) T d S w g,
    computes m T d S -> infers_near eps m T d S -> length w = d -> eps < g -> Forall (separates T w g) S -> fits m T S w.
Proof. intros X Y. exact near_fits. Qed.

(** ** where the error comes from *)
(** GraphCRF: the error of the solver is the error of both kinds of inference. *)
Theorem C88_graph_crf :
  forall eps solve g cw S, (0 < g_states g)%nat -> length cw = g_states g ->
    (forall p, In p S -> valid_x g (fst p) /\ Energy.labelling (mrows (gx_features (fst p))) (g_states g) (snd p) /\
       near_solver_on eps solve (mrows (gx_features (fst p))) (gx_edges (fst p))) ->
    oracle_near eps (g_smodel solve g cw) (g_task g cw) (g_size g) S /\ infers_near eps (g_smodel solve g cw) (g_task g cw) (g_size g) S.
Proof. exact g_oracle_near. Qed.
(** QPBO rounds potentials to thousandths: with a solver that minimises the integer energy, at weights whose potentials fit
    into 32 bits, prediction and loss-augmented inference are off by at most (nodes + edges) / 500. *)
Theorem C88_qpbo :
  forall b solve g cw x y w, b_qpbo b = Some solve -> valid_x g x -> length w = g_size g -> (0 < g_states g)%nat -> length cw = g_states g ->
    Energy.labelling (mrows (gx_features x)) (g_states g) y ->
    (forall Ui Pi, exists yh, solve (gx_edges x) Ui Pi = Ok yh /\ int_minimiser (mrows (gx_features x)) (g_states g) (gx_edges x) Ui Pi yh) ->
    (forall s t, (s < g_states g)%nat -> (t < g_states g)%nat -> fits_int32 (pair_score (g_states g) (g_features g) (g_directed g) w s t)) ->
    ((forall i s, (i < mrows (gx_features x))%nat -> (s < g_states g)%nat -> fits_int32 (unary_score (g_features g) w (mget (gx_features x) i) s)) ->
     exists yp, g_inference (inference_qpbo b) g x w = Ok yp /\ Energy.labelling (mrows (gx_features x)) (g_states g) yp /\
       forall y', Energy.labelling (mrows (gx_features x)) (g_states g) y' ->
         dot w (t_feat (g_task g cw) x y') <= dot w (t_feat (g_task g cw) x yp) + ofN (mrows (gx_features x) + length (gx_edges x)) / ofZ 500) /\
    ((forall i s, (i < mrows (gx_features x))%nat -> (s < g_states g)%nat ->
        fits_int32 (unary_score (g_features g) w (mget (gx_features x) i) s + (if (lab y i =? s)%nat then 0 else get1 cw (lab y i)))) ->
     exists yh, g_loss_augmented_inference (inference_qpbo b) g cw x y w = Ok yh /\
       near_worst (g_task g cw) (ofN (mrows (gx_features x) + length (gx_edges x)) / ofZ 500) w x y yh).
Proof. exact qpbo_near. Qed.

(** ** the hypotheses are met *)
(** An oracle that is not exact, its n-slack and one-slack runs, and the inexact perceptron. *)
Example C88_oracle_met :
  oracle_near half (ex49_m half) ex9_task 2 (combine ex9_X ex9_Y) /\ batch_near half (ex49_bm half) ex9_task 2 ex9_X ex9_Y /\
  ~ oracle_exact (ex49_m half) ex9_task 2 (combine ex9_X ex9_Y).
Proof. destruct (ex49_near half half_pos) as [A [B _]]. exact (conj A (conj B ex49_not_exact)). Qed.
Example C88_n_slack_met :
  match ns_fit Nat.eqb ex9_solver ex9_prm (ex49_m half) None ex9_X ex9_Y None None with
  | Ok (st, _, _, NoNewConstraint) => map this (st_w st) = [1#2; (-1)#2]%Q
  | _ => False
  end.
Proof. vm_compute. reflexivity. Qed.
Example C88_one_slack_met :
  match os_fit (fun a b => Ok (a =? b)%nat) ex10_solver (ex10_prm 5 0) (ex49_bm half) None ex9_X ex9_Y Cold with
  | Ok (st, OSNoConstraint) => map this (o_w st) = [1#2; (-1)#2]%Q /\ length (o_cons st) = 2%nat
  | _ => False
  end.
Proof. vm_compute. auto. Qed.
Example C88_perceptron_met :
  match pc_fit ex49_pc (ex49_infer three) ex49_mloss None (combine ex9_X ex9_Y) with
  | (L, None) => map this (pl_w L) = [2#1; (-2)#1]%Q /\ match pl_curve L with Some c => length c = 3%nat | None => False end
  | _ => False
  end.
Proof. vm_compute. auto. Qed.
Example C88_qpbo_met :
  (forall Ui Pi, exists yh, ex49_int [] Ui Pi = Ok yh /\ int_minimiser 1 2 [] Ui Pi yh) /\ fits_int32 (ofN 12) /\ fits_int32 (- ofN 12).
Proof. split; [exact ex49_int_minimises|]. split; split; reflexivity. Qed.

Print Assumptions C88_exact_is_zero_error.
Print Assumptions C88_n_slack.
Print Assumptions C88_one_slack.
Print Assumptions C88_objective.
Print Assumptions C88_dual_gap.
Print Assumptions C88_frank_wolfe.
Print Assumptions C88_certificate_without_error_refuted.
Print Assumptions C88_perceptron.
Print Assumptions C88_perceptron_converges.
Print Assumptions C88_perceptron_without_error_refuted.
Print Assumptions C88_prediction_loss.
Print Assumptions C88_margin_above_error.
Print Assumptions C88_graph_crf.
Print Assumptions C88_qpbo.

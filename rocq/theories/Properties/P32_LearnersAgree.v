(** C71: the learners agree: trained on the same data with the same C they end up with nearly the same weights, and
    predict the same (learners/subgradient_ssvm.py, frankwolfe_ssvm.py, one_slack_ssvm.py, n_slack_ssvm.py). *)
From Coq Require Import ZArith Permutation.
From Verif Require Import Model.FrankWolfe Spec.AgreeSpec Spec.CuttingPlaneSpec Proofs.NSlackExamples Proofs.OneSlackExamples Proofs.FrankWolfeProofs4
  Proofs.CuttingPlane5 Proofs.FWRate6 Proofs.SubgradientRate7 Proofs.Agree Proofs.AgreeExample.

(** ** What each learner returns is near the minimum of the one objective C * (sum of hinge losses) + |w|^2 / 2.
    (SubgradientSSVM: C70_converges.) *)
Theorem C71_one_slack_near {X Y} (T : task X Y) d (ceq : Y -> Y -> res bool) solve prm Xs Ys R2 L bm sw st reason :
  let K := o_C prm * ofN (length Xs) in
  (0 < length Xs)%nat -> 0 < o_C prm -> 0 < o_tol prm -> 0 < R2 -> o_window prm = O -> o_neg prm = None -> qp_exact solve ->
  (forall p y', In p (combine Xs Ys) -> t_label T (fst p) y' ->
     normsq (vsub (t_feat T (fst p) (snd p)) (t_feat T (fst p) y')) <= R2 /\ t_loss T (snd p) y' <= L) ->
  batch_exact bm T d Xs Ys -> o_cache prm = O \/ sm_rescale (bm_s bm) = false ->
  (forall b, sw = Some b -> batch_exact b T d Xs Ys /\ (o_cache prm = O \/ sm_rescale (bm_s b) = false)) ->
  K * L + qp_reg * (K * K) / (1 + 1)
    < ofN (o_max_iter prm - 1 - (if sw then 1 else 0)) * (gain K (o_tol prm) R2 - qp_reg * (K * K) / (1 + 1)) ->
  os_fit ceq solve prm bm sw Xs Ys Cold = Ok (st, reason) ->
  near_minimal T d (o_C prm) (combine Xs Ys) (o_w st) (K * o_tol prm + qp_reg * (K * K)).
Proof. exact (one_near T d ceq solve prm Xs Ys R2 L bm sw st reason). Qed.
Theorem C71_n_slack_near {X Y} (T : task X Y) d yeq solve prm (m : smodel X Y) sw Xs Ys labs old st curve primal reason :
  0 <= ns_C prm -> length Xs = length Ys -> sm_size m = d ->
  oracle_exact m T d (combine Xs Ys) -> (forall m', sw = Some m' -> oracle_exact m' T d (combine Xs Ys)) ->
  ns_window prm = O -> ns_neg prm = None -> ns_tol prm <= 0 -> qp_exact solve ->
  answers_all solve (ns_C prm) (length Xs) T (combine Xs Ys) ->
  (forall a, yeq a a = true) -> yeq_ok T yeq (combine Xs Ys) -> zero_loss_same T (combine Xs Ys) ->
  (forall p y', In p (combine Xs Ys) -> t_label T (fst p) y' -> In y' (labs p)) ->
  (list_sum (map (fun p => length (labs p)) (combine Xs Ys)) + (if sw then 1 else 0) < ns_max_iter prm)%nat ->
  ns_fit yeq solve prm m sw Xs Ys None old = Ok (st, curve, primal, reason) ->
  near_minimal T d (ns_C prm) (combine Xs Ys) (st_w st) (n_gap (ns_C prm) (length Xs)).
Proof. exact (n_near T d yeq solve prm m sw Xs Ys labs old st curve primal reason). Qed.
Theorem C71_frank_wolfe_near {X Y} (T : task X Y) d C tol check avg Xs Ys (bm : bmodel X Y) R L :
  (0 < length Xs)%nat -> 0 <= C -> fw_usable T d Xs Ys bm -> batch_exact bm T d Xs Ys -> bounded T R L (combine Xs Ys) -> 0 < tol -> (0 < check)%nat ->
  exists N, forall max_iter sched, (N <= max_iter)%nat -> passes (length Xs) sched ->
  exists w l p c, fw_fit (FWParams C max_iter tol false true check avg) bm Xs Ys sched None = Ok (w, l, p, c) /\ near_minimal T d C (combine Xs Ys) w tol.
Proof. exact (fw_near T d C tol check avg Xs Ys bm R L). Qed.

(** ** All four at once: after enough epochs and iterations, the squared distance of any two of the four weight vectors is at
    most four times the sum of their gaps. *)
Theorem C71_learners_agree {X Y} (T : task X Y) d (bm : bmodel X Y) Xs Ys C R L : (0 < length Xs)%nat -> 0 < C -> fw_usable T d Xs Ys bm -> batch_exact bm T d Xs Ys -> 0 < R -> bounded T R L (combine Xs Ys) ->
  forall t0 eps m (L0 : sg_learner) tol check avg, 1 <= t0 -> 0 < eps -> (0 < m)%nat -> length (start_weights d L0) = d -> 0 < tol -> (0 < check)%nat ->
  exists N,
  forall prm1 warm shuf prm2 sched prm3 ceq solve sw st3 reason3 prm4 yeq solve4 labs old st4 curve primal reason4,
  pegasos prm1 C t0 -> equal_steps prm1 (length Xs) m -> online_mode prm1 \/ batches_exact bm T d (combine Xs Ys) -> sg_break prm1 = false \/ mini_mode prm1 ->
  (forall it S', Permutation (shuf it S') S') -> same_rate prm1 (length Xs) warm L0 -> (N <= sg_max_iter prm1)%nat ->
  (N <= fw_max_iter prm2)%nat -> prm2 = FWParams C (fw_max_iter prm2) tol false true check avg -> passes (length Xs) sched ->
  let K := C * ofN (length Xs) in
  o_C prm3 = C -> 0 < o_tol prm3 -> o_window prm3 = O -> o_neg prm3 = None -> qp_exact solve ->
  (forall b, sw = Some b -> batch_exact b T d Xs Ys /\ (o_cache prm3 = O \/ sm_rescale (bm_s b) = false)) ->
  K * L + qp_reg * (K * K) / (1 + 1)
    < ofN (o_max_iter prm3 - 1 - (if sw then 1 else 0)) * (gain K (o_tol prm3) (R * R) - qp_reg * (K * K) / (1 + 1)) ->
  os_fit ceq solve prm3 bm sw Xs Ys Cold = Ok (st3, reason3) ->
  ns_C prm4 = C -> ns_window prm4 = O -> ns_neg prm4 = None -> ns_tol prm4 <= 0 -> qp_exact solve4 ->
  answers_all solve4 C (length Xs) T (combine Xs Ys) ->
  (forall a, yeq a a = true) -> yeq_ok T yeq (combine Xs Ys) -> zero_loss_same T (combine Xs Ys) ->
  (forall p y', In p (combine Xs Ys) -> t_label T (fst p) y' -> In y' (labs p)) ->
  (list_sum (map (fun p => length (labs p)) (combine Xs Ys)) < ns_max_iter prm4)%nat ->
  ns_fit yeq solve4 prm4 (bm_s bm) None Xs Ys None old = Ok (st4, curve, primal, reason4) ->
  exists w1 t1 c1 r1 w2 l2 p2 c2,
    sg_fit prm1 bm shuf warm (combine Xs Ys) L0 = Ok (SGLearner t1 (Some (w1, r1, c1))) /\
    fw_fit prm2 bm Xs Ys sched None = Ok (w2, l2, p2, c2) /\
    close_pairs [(w1, eps); (w2, tol); (o_w st3, K * o_tol prm3 + qp_reg * (K * K)); (st_w st4, n_gap C (length Xs))].
Proof. exact (four_agree T d bm Xs Ys C R L). Qed.

(** ** Predictions: an output that leads clearly at some nearly minimal weights is predicted by every learner. *)
Theorem C71_predictions_agree {X Y} (T : task X Y) d (m : smodel X Y) C S u e v g x yp : 0 <= C -> oracle_exact m T d S -> near_minimal T d C S u e -> near_minimal T d C S v g ->
  (forall y', t_label T x y' -> length (t_feat T x y') = d) -> (forall a b : Y, a = b \/ a <> b) ->
  clear_winner T u x yp (ofN 4 * (e + g)) -> exact_inference m T v x -> sm_inference m x v = Ok yp.
Proof. exact (near_predicts T d m C S u e v g x yp). Qed.
(** In particular the prediction does not change any more after some number of epochs, whatever the shuffling. *)
Theorem C71_subgradient_settles {X Y} (T : task X Y) d C t0 (bm : bmodel X Y) S R2 L m u e D x yp : 0 < C -> 1 <= t0 -> (0 < length S)%nat -> sm_size (bm_s bm) = d ->
  oracle_exact (bm_s bm) T d S -> Forall (spread T R2) S -> length (start_weights d L) = d -> (0 < m)%nat ->
  near_minimal T d C S u e -> ofN 4 * e < D -> clear_winner T u x yp D ->
  (forall y', t_label T x y' -> length (t_feat T x y') = d) -> (forall a b : Y, a = b \/ a <> b) -> (forall w, length w = d -> exact_inference (bm_s bm) T w x) ->
  exists N, forall prm warm shuf, pegasos prm C t0 -> equal_steps prm (length S) m -> online_mode prm \/ batches_exact bm T d S ->
  sg_break prm = false \/ mini_mode prm -> (forall it S', Permutation (shuf it S') S') -> same_rate prm (length S) warm L -> (N <= sg_max_iter prm)%nat ->
  exists w c, sg_fit prm bm shuf warm S L = Ok (SGLearner (sl_t L + sg_max_iter prm * m) (Some (w, C * ofN (length S), c))) /\ sm_inference (bm_s bm) x w = Ok yp.
Proof. exact (sg_settles T d C t0 bm S R2 L m u e D x yp). Qed.
Theorem C71_frank_wolfe_settles {X Y} (T : task X Y) d C tol check avg Xs Ys (bm : bmodel X Y) R L u e D x yp :
  (0 < length Xs)%nat -> 0 <= C -> fw_usable T d Xs Ys bm -> batch_exact bm T d Xs Ys -> bounded T R L (combine Xs Ys) -> 0 < tol -> (0 < check)%nat ->
  near_minimal T d C (combine Xs Ys) u e -> ofN 4 * (e + tol) <= D -> clear_winner T u x yp D ->
  (forall y', t_label T x y' -> length (t_feat T x y') = d) -> (forall a b : Y, a = b \/ a <> b) -> (forall w, length w = d -> exact_inference (bm_s bm) T w x) ->
  exists N, forall max_iter sched, (N <= max_iter)%nat -> passes (length Xs) sched ->
  exists w l p c, fw_fit (FWParams C max_iter tol false true check avg) bm Xs Ys sched None = Ok (w, l, p, c) /\ sm_inference (bm_s bm) x w = Ok yp.
Proof. exact (fw_settles T d C tol check avg Xs Ys bm R L u e D x yp). Qed.

(** ** The hypotheses are met: one sample of two classes, C = 1; (1/2, -1/2) is the minimum, class 0 leads by 1 there, and
    the squared distance of the joint features is 2. *)
Example C71_winner_met :
  near_minimal ex9_task 2 1 (combine ex9_X ex9_Y) ex32_u 0 /\ clear_winner ex9_task ex32_u [1] 0%nat (Q2Qc (2 # 5)) /\
  ~ clear_winner ex9_task ex32_u [1] 0%nat (Q2Qc (1 # 2)) /\ ofN 4 * 0 < Q2Qc (2 # 5) /\ ofN 4 * (0 + Q2Qc (1 # 10)) <= Q2Qc (2 # 5) /\
  (forall w, length w = 2%nat -> exact_inference (bm_s ex10_bm) ex9_task w [1]) /\
  (forall y', t_label ex9_task [1] y' -> length (t_feat ex9_task [1] y') = 2%nat).
Proof. exact ex32_met. Qed.
(** The numbers of C71_learners_agree: R = 3/2, L = 1, tolerance 1/2 of the one-slack learner, 150 rounds. *)
Example C71_agree_met :
  fw_usable ex9_task 2 ex9_X ex9_Y ex10_bm /\ batch_exact ex10_bm ex9_task 2 ex9_X ex9_Y /\ bounded ex9_task (Q2Qc (3 # 2)) 1 (combine ex9_X ex9_Y) /\
  qp_exact ex10_solver /\ qp_exact ex9_solver /\ answers_all ex9_solver 1 (length ex9_X) ex9_task (combine ex9_X ex9_Y) /\
  yeq_ok ex9_task Nat.eqb (combine ex9_X ex9_Y) /\ zero_loss_same ex9_task (combine ex9_X ex9_Y) /\
  (let K := 1 * ofN (length ex9_X) in
   K * 1 + qp_reg * (K * K) / (1 + 1) < ofN (o_max_iter (ex25_one 150) - 1) * (gain K (o_tol (ex25_one 150)) (Q2Qc (3 # 2) * Q2Qc (3 # 2)) - qp_reg * (K * K) / (1 + 1))) /\
  o_C (ex25_one 150) = 1 /\ ns_C (ex25_many 4 0) = 1.
Proof.
  split; [exact (proj1 ex29_usable)|]. split; [exact (proj2 ex29_usable)|]. split; [exact ex29_bounded|]. split; [exact ex10_exact|]. destruct ex9_ok as [A [_ [_ [_ [D E]]]]].
  split; [exact A|]. split; [exact ex25_answers|]. split; [exact D|]. split; [exact E|]. split; [vm_compute; reflexivity|]. split; reflexivity.
Qed.
(** After 19 epochs the subgradient learner is close; the cutting-plane learners are at the minimum. *)
Example C71_computed :
  match sg_fit (ex31_prm 1 1 19 1 None false) ex10_bm (fun _ S => S) false (combine ex9_X ex9_Y) sg_new,
        os_fit (fun a b => Ok (a =? b)%nat) ex10_solver (ex25_one 68) ex10_bm None ex9_X ex9_Y Cold,
        ns_fit Nat.eqb ex9_solver (ex25_many 4 0) (bm_s ex10_bm) None ex9_X ex9_Y None None with
  | Ok (SGLearner _ (Some (w, _, _))), Ok (st, _), Ok (st', _, _, _) =>
      map this w = [9 # 19; (-9) # 19]%Q /\ map this (o_w st) = [1 # 2; (-1) # 2]%Q /\ map this (st_w st') = [1 # 2; (-1) # 2]%Q
  | _, _, _ => False
  end.
Proof. vm_compute. auto. Qed.

Print Assumptions C71_one_slack_near.
Print Assumptions C71_n_slack_near.
Print Assumptions C71_frank_wolfe_near.
Print Assumptions C71_learners_agree.
Print Assumptions C71_predictions_agree.
Print Assumptions C71_subgradient_settles.
Print Assumptions C71_frank_wolfe_settles.

(** Properties of StructuredPerceptron (learners/structured_perceptron.py): C33, C34. *)
From Coq Require Import ZArith.
From Verif Require Import Model.Instances Model.Loss Spec.TaskInstances Spec.SolverSpec Spec.GraphSpec Proofs.GraphCRFProofs
  Proofs.PerceptronProofs2 Proofs.PerceptronProofs3 Proofs.PerceptronProofs4 Spec.PerceptronSpec.

(** * C33: mistake bound *)
(** With exact inference and a constant rate: whatever the data, their order, the number of
    epochs and averaging, fit succeeds, and over all epochs it makes at most R2*|u|^2/g^2
    mistakes; in batch mode at most as many times the number of samples. *)
Theorem C33_mistake_bound : forall {X Y} (m : smodel X Y) (T : task X Y) d S prm mloss old mls u g R2,
  computes m T d S -> infers_exactly m T d S -> sm_size m = d -> pc_decay prm = 0%Z -> average_ok prm ->
  mapM (fun p => mloss (snd p)) S = Ok mls ->
  length u = d -> 0 < g -> 0 <= R2 -> Forall (separates T u g) S -> Forall (wrong_within T R2) S ->
  exists L Es, pc_fit prm m mloss old S = (L, None) /\ epochs prm m T S 0 (vzero d) Es /\
    pl_curve L = Some (map (entry T (lsum mls)) Es) /\
    ofN (all_mistakes T Es) * (g * g) <= (if pc_batch prm then ofN (length S) else 1) * (R2 * normsq u).
Proof.
  intros X Y m T d S prm mloss old mls u g R2 HC HX H1 HD H3 H4 HU HG HR0 HS HR.
  destruct (fit_answers m T d S HC (exactly_infers m T d S HX) prm mloss old mls (exactly_answers m T d S HX) H1
              (or_introl (Z.eq_le_incl _ _ (eq_sym HD))) H3 H4) as [L [Es [B1 [B2 [_ [B4 _]]]]]].
  exists L, Es. exact (conj B1 (conj B2 (conj B4 (mistake_bound m T d S prm u g R2 Es HC HX HD HU HG HR0 HS HR B2)))).
Qed.
(** Decaying or growing rates: the mistakes weighted by their rates against the squared rates. *)
Theorem C33_rate_bound : forall {X Y} (m : smodel X Y) (T : task X Y) d S prm u g R2 Es,
  computes m T d S -> infers_exactly m T d S -> 0 <= pc_t0 prm ->
  length u = d -> 0 <= g -> Forall (separates T u g) S -> Forall (wrong_within T R2) S ->
  epochs prm m T S 0 (vzero d) Es ->
  moved prm T 0 Es * g * (moved prm T 0 Es * g) <= normsq u * (spent prm T 0 Es * R2).
Proof. intros X Y. exact rate_bound. Qed.
(** So on separable data training stops by itself within a known number of epochs, and then the
    weights make no mistake. *)
Theorem C33_converges : forall {X Y} (m : smodel X Y) (T : task X Y) d S prm mloss old mls u g R2,
  computes m T d S -> infers_exactly m T d S ->
  sm_size m = d -> pc_decay prm = 0%Z -> average_ok prm -> mapM (fun p => mloss (snd p)) S = Ok mls -> lsum mls <> 0 ->
  length u = d -> 0 < g -> 0 <= R2 -> Forall (separates T u g) S -> Forall (wrong_within T R2) S ->
  (if pc_batch prm then ofN (length S) else 1) * (R2 * normsq u) < ofN (pc_max_iter prm) * (g * g) ->
  exists L c, pc_fit prm m mloss old S = (L, None) /\ pl_curve L = Some c /\ c <> [] /\ last c None = Some 0 /\
    ofN (length c - 1) * (g * g) <= (if pc_batch prm then ofN (length S) else 1) * (R2 * normsq u) /\
    (pc_avg prm = NoAverage -> fits m T S (pl_w L)).
Proof. intros X Y. exact converges. Qed.
(** The shipped models meet the hypotheses on every well-formed data set. *)
Theorem C33_binaryclf : forall d S, Forall (fun p => length (fst p) = d /\ (snd p = 1%Z \/ snd p = (-1)%Z)) S ->
  computes (bc_smodel d) bc_task d S /\ infers_exactly (bc_smodel d) bc_task d S.
Proof. exact bc_computes. Qed.
Theorem C33_multiclassclf : forall m S, mc_rescale m = false -> length (mc_cw m) = mc_states m -> (forall s, 0 <= get1 (mc_cw m) s) ->
  Forall (fun p => length (fst p) = mc_features m /\ (snd p < mc_states m)%nat) S ->
  let T := mc_task (mc_states m) (mc_features m) (get1 (mc_cw m)) in
  computes (mc_smodel m) T (mc_size m) S /\ infers_exactly (mc_smodel m) T (mc_size m) S.
Proof. exact mc_computes. Qed.
Theorem C33_graphcrf : forall solve g cw S, length cw = g_states g -> (forall s, 0 <= get1 cw s) -> (0 < g_states g)%nat ->
  (forall x y, In (x, y) S -> exact_solver_on solve (mrows (gx_features x)) (gx_edges x) /\ mat_ok (gx_features x) /\
     mcols (gx_features x) = g_features g /\ graph_edges (mrows (gx_features x)) (gx_edges x) /\
     labelling (mrows (gx_features x)) (g_states g) y) ->
  computes (g_smodel solve g cw) (g_task g cw) (g_size g) S /\ infers_exactly (g_smodel solve g cw) (g_task g cw) (g_size g) S.
Proof.
  intros solve g cw S H1 H2 H3 H. apply g_computes; [exact H1|exact H2|exact H3|]. apply Forall_forall. intros [x y] Hp.
  destruct (H x y Hp) as [A1 [A2 [A3 [A4 A5]]]]. exact (conj A1 (conj (Build_valid_x g x A2 A3 A4) A5)).
Qed.
Theorem C33_chaincrf : forall g cw S, length cw = g_states g -> (forall s, 0 <= get1 cw s) -> (0 < g_states g)%nat ->
  Forall (fun p => mat_ok (fst p) /\ mcols (fst p) = g_features g /\ (0 < mrows (fst p))%nat /\ labelling (mrows (fst p)) (g_states g) (snd p)) S ->
  computes (chain_smodel g cw) (chain_task g cw) (g_size g) S /\ infers_exactly (chain_smodel g cw) (chain_task g cw) (g_size g) S.
Proof. exact chain_computes. Qed.

(** * C34: runs, stopping and averaging *)
(** Every call of fit, whatever inference does (as long as it predicts allowed outputs or raises):
    it goes through complete epochs Es, whose relative losses are loss_curve_, and possibly one
    broken off by an exception; KeyboardInterrupt does not leave fit.  No epoch but the last is
    free of loss.  The weights in the end are the last ones or, with averaging, the mean of those
    observed since averaging started. *)
Theorem C34_fit : forall {X Y} (m : smodel X Y) (T : task X Y) d S, computes m T d S -> infers m T d S ->
  forall prm mloss old mls L x, sm_size m = d -> rates_ok prm -> average_ok prm ->
  mapM (fun p => mloss (snd p)) S = Ok mls -> pc_fit prm m mloss old S = (L, x) ->
  exists Es P raised, epochs prm m T S 0 (vzero d) Es /\ (length Es <= pc_max_iter prm)%nat /\
    pl_curve L = Some (map (entry T (lsum mls)) Es) /\ exposed d (pc_batch prm) (pc_avg prm) Es P (pl_w L) /\
    Forall (fun e => ~ zero_entry (entry T (lsum mls) e)) (removelast Es) /\ x = leaving raised /\
    match raised with
    | None => P = None /\ ends T (pc_max_iter prm) Es (lsum mls)
    | Some x => exists e, P = Some e /\ broken prm m T S (length Es) (finish_all (vzero d) Es) e x /\ (length Es < pc_max_iter prm)%nat /\
                  goes_on T (lsum mls) Es
    end.
Proof. intros X Y. exact fit_run. Qed.
(** Early stop: the final weights have no loss on any training sample, online or batch, for any
    inference. *)
Theorem C34_early_stop : forall {X Y} (m : smodel X Y) (T : task X Y) d S, computes m T d S -> infers m T d S ->
  forall prm mloss old mls L x c, sm_size m = d -> rates_ok prm -> average_ok prm -> mapM (fun p => mloss (snd p)) S = Ok mls ->
  pc_fit prm m mloss old S = (L, x) -> pl_curve L = Some c -> last c None = Some 0 -> pc_avg prm = NoAverage -> fits m T S (pl_w L).
Proof. intros X Y. exact early_stop. Qed.
(** Stopping before the epoch where averaging starts leaves all weights zero. *)
Theorem C34_average_never_started : forall {X Y} (m : smodel X Y) (T : task X Y) d S, computes m T d S -> infers m T d S ->
  forall prm mloss old mls L x c k, answers m T d S -> sm_size m = d -> rates_ok prm -> mapM (fun p => mloss (snd p)) S = Ok mls ->
  pc_avg prm = FromEpoch k -> (0 <= k)%Z -> pc_fit prm m mloss old S = (L, x) -> pl_curve L = Some c -> (Z.of_nat (length c) <= k)%Z ->
  pl_w L = vzero d.
Proof. intros X Y. exact never_started. Qed.
(** Without any maximal loss (no samples, or class weights zero) nothing finite is recorded and
    training never stops early. *)
Theorem C34_no_max_loss : forall {X Y} (m : smodel X Y) (T : task X Y) d S, computes m T d S -> infers m T d S ->
  forall prm mloss old mls L c x, sm_size m = d -> rates_ok prm -> average_ok prm -> mapM (fun p => mloss (snd p)) S = Ok mls ->
  lsum mls = 0 -> pc_fit prm m mloss old S = (L, x) -> pl_curve L = Some c ->
  Forall (fun o => o = None) c /\ (answers m T d S -> length c = pc_max_iter prm).
Proof. intros X Y. exact no_max_loss. Qed.
(** average below -1: the intended NotImplementedError is a TypeError; the weights are zeroed. *)
Theorem C34_average_too_low : forall {X Y} prm (m : smodel X Y) mloss old S, ~ average_ok prm ->
  pc_fit prm m mloss old S = (PCLearner (vzero (sm_size m)) old (pc_avg prm), Some TypeError).
Proof. intros X Y. exact average_too_low. Qed.
(** A decaying rate with decay_t0 = 0 fails in the first epoch. *)
Theorem C34_decay_t0_zero : forall {X Y} prm (m : smodel X Y) mloss old mls S,
  average_ok prm -> (pc_decay prm < 0)%Z -> pc_t0 prm = 0 -> (0 < pc_max_iter prm)%nat -> mapM (fun p => mloss (snd p)) S = Ok mls ->
  snd (pc_fit prm m mloss old S) = Some ZeroDivisionError /\ pl_w (fst (pc_fit prm m mloss old S)) = vzero (sm_size m).
Proof. intros X Y. exact rate_fails. Qed.
(** MultiClassClf with rescale_C: joint_feature is called without y_true, nothing is ever learnt. *)
Theorem C34_rescaled_never_learns : forall m prm mloss old S, mc_rescale m = true ->
  pl_w (fst (pc_fit prm (mc_smodel m) mloss old S)) = vzero (sm_size (mc_smodel m)).
Proof. intros m prm mloss old S H. exact (fit_stuck (mc_smodel m) (mc_rescaled_stuck m H) prm mloss old S). Qed.

(** ** examples: three classes, separated by [ex13_u] with margin 1 *)
Example C33_hypotheses : computes (mc_smodel ex13_mc) ex13_task 6 ex13_S /\ infers_exactly (mc_smodel ex13_mc) ex13_task 6 ex13_S /\
  Forall (separates ex13_task ex13_u 1) ex13_S /\ Forall (wrong_within ex13_task (ofN 4)) ex13_S /\
  mapM (fun p => ex13_mloss (snd p)) ex13_S = Ok [1; 1; 1] /\
  forall b, (if b : bool then ofN (length ex13_S) else 1) * (ofN 4 * normsq ex13_u) < ofN (pc_max_iter (ex13_prm b NoAverage)) * (1 * 1).
Proof.
  assert (H : computes (mc_smodel ex13_mc) ex13_task 6 ex13_S /\ infers_exactly (mc_smodel ex13_mc) ex13_task 6 ex13_S).
  { apply (mc_computes ex13_mc); [reflexivity|reflexivity| |].
    - intros [|[|[|[|s]]]]; vm_compute; discriminate.
    - repeat constructor. }
  split; [exact (proj1 H)|]. split; [exact (proj2 H)|]. split; [exact (proj1 ex13_separates)|]. split; [exact (proj2 ex13_separates)|].
  split; [reflexivity|]. intros []; vm_compute; reflexivity.
Qed.
Definition shown (r : pc_learner * option exn) :=
  (map this (pl_w (fst r)), option_map (map (option_map this)) (pl_curve (fst r)), snd r).
Example C34_runs :
  shown (pc_fit (ex13_prm false NoAverage) (mc_smodel ex13_mc) ex13_mloss None ex13_S)
    = (([1; 0; 0; 1; -1; -1], Some [Some (2 # 3); Some 0], None)%Q) /\
  shown (pc_fit (ex13_prm false AllEpochs) (mc_smodel ex13_mc) ex13_mloss None ex13_S)
    = (([2 # 3; -1 # 6; 0; 5 # 6; -2 # 3; -2 # 3], Some [Some (2 # 3); Some 0], None)%Q) /\
  (* averaging would have started in the eleventh epoch *)
  shown (pc_fit (ex13_prm false (FromEpoch 10)) (mc_smodel ex13_mc) ex13_mloss None ex13_S)
    = (([0; 0; 0; 0; 0; 0], Some [Some (2 # 3); Some 0], None)%Q) /\
  (* interrupted in the second epoch *)
  shown (pc_fit (ex13_prm false AllEpochs) ex13_int ex13_mloss None ex13_S)
    = (([1 # 2; -1 # 4; 0; 3 # 4; -1 # 2; -1 # 2], Some [Some (2 # 3)], None)%Q) /\
  rates_ok (ex13_prm false (FromEpoch (-1))) /\ average_ok (ex13_prm false (FromEpoch (-1))) /\
  ~ average_ok (ex13_prm false (FromEpoch (-2))).
Proof. repeat split; try (vm_compute; reflexivity); try (left; vm_compute; discriminate); vm_compute; [discriminate|intros H; apply H; reflexivity]. Qed.

Print Assumptions C33_mistake_bound.
Print Assumptions C33_rate_bound.
Print Assumptions C33_converges.
Print Assumptions C33_binaryclf.
Print Assumptions C33_multiclassclf.
Print Assumptions C33_graphcrf.
Print Assumptions C33_chaincrf.
Print Assumptions C34_fit.
Print Assumptions C34_early_stop.
Print Assumptions C34_average_never_started.
Print Assumptions C34_no_max_loss.
Print Assumptions C34_average_too_low.
Print Assumptions C34_decay_t0_zero.
Print Assumptions C34_rescaled_never_learns.

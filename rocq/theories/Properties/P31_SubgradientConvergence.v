(** C70: training with SubgradientSSVM converges. *)
From Coq Require Import ZArith Permutation.
From Verif Require Import Model.Subgradient Model.BatchInstances Spec.TaskInstances Spec.SubgradientRateSpec
  Proofs.NSlackExamples Proofs.OneSlackExamples Proofs.SubgradientProofs5 Proofs.SubgradientRate6 Proofs.SubgradientRate7.

(** With the default schedule (learning rate C * n / (t + t0), t0 at least 1, no momentum, no averaging), n_jobs=1 and
    online learning, batches of equal size or the full batch: however the samples are shuffled, and whatever weights
    training starts from, enough epochs bring the objective of the returned weights as close to the minimum as one
    likes.  The number of epochs depends neither on the shuffling nor on the model's choice between equally bad outputs.
    Online learning needs break_on_no_constraints=False. *)
Theorem C70_converges {X Y} (T : task X Y) d C t0 (bm : bmodel X Y) S R2 L m eps : 0 < C -> 1 <= t0 -> (0 < length S)%nat -> sm_size (bm_s bm) = d ->
  oracle_exact (bm_s bm) T d S -> Forall (spread T R2) S -> length (start_weights d L) = d -> (0 < m)%nat -> 0 < eps ->
  exists N, forall prm warm shuf, pegasos prm C t0 -> equal_steps prm (length S) m -> online_mode prm \/ batches_exact bm T d S ->
  sg_break prm = false \/ mini_mode prm -> (forall it S', Permutation (shuf it S') S') -> same_rate prm (length S) warm L -> (N <= sg_max_iter prm)%nat ->
  exists w c, sg_fit prm bm shuf warm S L = Ok (SGLearner (sl_t L + sg_max_iter prm * m) (Some (w, C * ofN (length S), c))) /\ near_minimal T d C S w eps.
Proof. intros H1 H2 H3 H4 H5 H6 H7 H8 H9. exact (equal_converges T d C t0 bm S R2 L H1 H2 H3 H4 H5 H6 H7 m eps H8 H9). Qed.

(** An explicit bound after [E] epochs of [m] steps, that goes to zero like sqrt (log E / E); also when training was
    stopped early. *)
Theorem C70_rate {X Y} (T : task X Y) d C t0 (bm : bmodel X Y) S R2 L m prm warm shuf : 0 < C -> 1 <= t0 -> (0 < length S)%nat -> sm_size (bm_s bm) = d ->
  oracle_exact (bm_s bm) T d S -> Forall (spread T R2) S -> length (start_weights d L) = d ->
  let K := C * ofN (length S) in
  normsq (start_weights d L) <= K * K * R2 -> pegasos prm C t0 -> equal_steps prm (length S) m -> online_mode prm \/ batches_exact bm T d S ->
  (forall it S', Permutation (shuf it S') S') -> same_rate prm (length S) warm L ->
  let G := (1 + 1 + 1 + 1) * (K * K * R2) in
  exists w c E, sg_fit prm bm shuf warm S L = Ok (SGLearner (sl_t L + E * m) (Some (w, K, c))) /\ length w = d /\ normsq w <= K * K * R2 /\
  (E <= sg_max_iter prm)%nat /\ ((0 < sg_max_iter prm)%nat -> (0 < E)%nat) /\ (sg_break prm = false \/ mini_mode prm -> E = sg_max_iter prm) /\
  forall r u hs hu, (0 < E)%nat -> 0 <= r ->
    G * G * (ofN (sl_t L) + t0 - 1 + ofN m * ofN m * strided t0 (sl_t L) m E) <= (ofN (sl_t L) + t0 + ofN E * ofN m - 1) * (r * r) ->
    length u = d -> hinges T w S hs -> hinges T u S hu ->
    primal_value C w hs <= primal_value C u hu +
      ((ofN (sl_t L) + t0 - 1) * normsq (vsub (start_weights d L) u) + ofN m * ofN m * G * strided t0 (sl_t L) m E) / ((1 + 1) * (ofN m * ofN E)) + r.
Proof. intros H1 H2 H3 H4 H5 H6 H7 K H8 H9 H10 H11 H12 H13. exact (equal_rate T d C t0 bm S R2 L H1 H2 H3 H4 H5 H6 H7 m prm warm shuf H8 H9 H10 H11 H12 H13). Qed.

(** Nearly minimal weights are close to each other: the weights converge, too, to the same ones for every shuffling, start
    and batch size. *)
Theorem C70_weights_agree {X Y} (T : task X Y) d (m : smodel X Y) C S w v e1 e2 : 0 <= C -> oracle_exact m T d S ->
  near_minimal T d C S w e1 -> near_minimal T d C S v e2 -> normsq (vsub w v) <= ofN 4 * (e1 + e2).
Proof. exact (near_close T d m C S w v e1 e2). Qed.

(** n_jobs <> 1: the weights converge to the minimiser for C * n / n_batches instead of C. *)
Theorem C70_parallel_converges {X Y} (T : task X Y) d C t0 (bm : bmodel X Y) S R2 L b eps : 0 < C -> 1 <= t0 -> (0 < length S)%nat -> sm_size (bm_s bm) = d ->
  oracle_exact (bm_s bm) T d S -> Forall (spread T R2) S -> length (start_weights d L) = d -> (0 < b)%nat -> 0 < eps ->
  exists N, forall prm warm shuf, pegasos prm C t0 -> parallel_steps prm b -> sg_break prm = false ->
  (forall it S', Permutation (shuf it S') S') -> same_rate prm (length S) warm L -> (N <= sg_max_iter prm)%nat ->
  exists w c, sg_fit prm bm shuf warm S L = Ok (SGLearner (sl_t L + sg_max_iter prm * batch_count (length S) b) (Some (w, C * ofN (length S), c))) /\
  near_minimal T d (C * ofN (length S) / ofN (batch_count (length S) b)) S w eps.
Proof. intros H1 H2 H3 H4 H5 H6 H7 H8 H9. exact (parallel_converges T d C t0 bm S R2 L H1 H2 H3 H4 H5 H6 H7 b eps H8 H9). Qed.

(** Batches of different sizes without shuffling: samples in smaller batches count more. *)
Theorem C70_uneven_converges {X Y} (T : task X Y) d C t0 (bm : bmodel X Y) S R2 L b eps : 0 < C -> 1 <= t0 -> (0 < length S)%nat -> sm_size (bm_s bm) = d ->
  oracle_exact (bm_s bm) T d S -> Forall (spread T R2) S -> length (start_weights d L) = d -> (1 < b)%Z -> batches_exact bm T d S -> 0 < eps ->
  exists N, forall prm warm shuf, pegasos prm C t0 -> sg_jobs prm = 1%Z -> sg_batch prm = Some b ->
  (forall it S', shuf it S' = S') -> same_rate prm (length S) warm L -> (N <= sg_max_iter prm)%nat ->
  exists w c, sg_fit prm bm shuf warm S L = Ok (SGLearner (sl_t L + sg_max_iter prm * batch_count (length S) (Z.to_nat b)) (Some (w, C * ofN (length S), c))) /\
  near_minimal_weighted T d (batch_factors C (length S) (even_sizes_of (length S) (batch_count (length S) (Z.to_nat b)))) S w eps.
Proof. intros H1 H2 H3 H4 H5 H6 H7 H8 H9 H10. exact (uneven_converges T d C t0 bm S R2 L H1 H2 H3 H4 H5 H6 H7 b eps H8 H9 H10). Qed.

(** ** Refutations: settings with which no number of epochs is enough.
    The defaults (break_on_no_constraints=True): training stops after the second epoch, half an objective unit away. *)
Theorem C70_default_stop_refuted k : (2 <= k)%nat -> exists w c,
  sg_fit (ex31_prm (ofN 10) (ofN 10) k 1 None true) ex10_bm (fun _ S => S) false [([1], 0%nat)] sg_new = Ok (SGLearner 2 (Some (w, ofN 10, c))) /\
  ~ near_minimal ex9_task 2 (ofN 10) [([1], 0%nat)] w (Q2Qc (1 # 2)).
Proof. exact (default_stop k). Qed.
(** n_jobs=2 *)
Theorem C70_parallel_refuted : exists N, forall k, (N <= k)%nat -> exists w c,
  sg_fit (ex31_prm (Q2Qc (1 # 8)) (ofN 10) k 2 None false) ex10_bm (fun _ S => S) false ex12_S sg_new = Ok (SGLearner k (Some (w, Q2Qc (1 # 4), c))) /\
  ~ near_minimal ex9_task 2 (Q2Qc (1 # 8)) ex12_S w (Q2Qc (1 # 64)).
Proof. exact parallel_refuted. Qed.
(** batch_size=2 with three samples *)
Theorem C70_uneven_refuted : exists N, forall k, (N <= k)%nat -> exists w c,
  sg_fit (ex31_prm (Q2Qc (1 # 4)) (ofN 10) k 1 (Some 2%Z) true) ex10_bm (fun _ S => S) false ex31_S sg_new = Ok (SGLearner (k * 2) (Some (w, Q2Qc (3 # 4), c))) /\
  ~ near_minimal ex9_task 2 (Q2Qc (1 # 4)) ex31_S w (Q2Qc (1 # 64)).
Proof. exact uneven_refuted. Qed.

(** ** The hypotheses are met: three samples, online, full batch; four samples in two batches; two jobs. *)
Example C70_hypotheses_met k :
  oracle_exact (bm_s ex10_bm) ex9_task 2 ex31_S /\ batches_exact ex10_bm ex9_task 2 ex31_S /\ Forall (spread ex9_task (1 + 1)) ex31_S /\ sm_size (bm_s ex10_bm) = 2%nat /\
  pegasos (ex31_prm 1 (ofN 10) k 1 None false) 1 (ofN 10) /\ equal_steps (ex31_prm 1 (ofN 10) k 1 None false) (length ex31_S) 3 /\ online_mode (ex31_prm 1 (ofN 10) k 1 None false) /\
  equal_steps (ex31_prm 1 (ofN 10) k 1 (Some (-1)%Z) true) (length ex31_S) 1 /\ mini_mode (ex31_prm 1 (ofN 10) k 1 (Some (-1)%Z) true) /\
  equal_steps (ex31_prm 1 (ofN 10) k 1 (Some 2%Z) true) (length (ex31_S ++ [([1], 1%nat)])) 2 /\
  parallel_steps (ex31_prm 1 (ofN 10) k 2 None false) 2 /\ parallel_steps (ex31_prm 1 (ofN 10) k (-1) None false) 4 /\
  same_rate (ex31_prm 1 (ofN 10) k 1 None false) 3 true (SGLearner 7 (Some ([1; 0], ofN 3, []))).
Proof.
  split; [apply ones_oracle, ex31_ones|]. split; [apply ones_batches, ex31_ones|]. split; [apply ones_spread, ex31_ones|]. split; [reflexivity|].
  split; [repeat split|]. split; [split; reflexivity|]. split; [split; [reflexivity|left; reflexivity]|].
  split; [split; [reflexivity|left; split; reflexivity]|]. split; [split; [reflexivity|exists (-1)%Z; split; [reflexivity|discriminate]]|].
  split; [split; [reflexivity|right; split; reflexivity]|].
  split; [split; [reflexivity|split; [lia|left; split; reflexivity]]|]. split; [split; [reflexivity|split; [lia|right; split; reflexivity]]|].
  intros _. exists [1; 0], []. cbn [sl_fitted ex31_prm sg_C]. replace (1 * ofN 3) with (ofN 3) by ring. reflexivity.
Qed.
(** The factors of three samples in batches of two and one: 3C/4, 3C/4 and 3C/2. *)
Example C70_factors_value : map this (batch_factors 1 3 (even_sizes_of 3 (batch_count 3 2))) = [3 # 4; 3 # 4; 3 # 2]%Q.
Proof. vm_compute. reflexivity. Qed.

Print Assumptions C70_converges.
Print Assumptions C70_rate.
Print Assumptions C70_weights_agree.
Print Assumptions C70_parallel_converges.
Print Assumptions C70_uneven_converges.
Print Assumptions C70_default_stop_refuted.
Print Assumptions C70_parallel_refuted.
Print Assumptions C70_uneven_refuted.

(** C72: the averaged weights of SubgradientSSVM converge, too. *)
From Coq Require Import ZArith Permutation.
From Verif Require Import Model.Subgradient Model.BatchInstances Spec.TaskInstances Spec.SubgradientAvgSpec
  Proofs.NSlackExamples Proofs.OneSlackExamples Proofs.SubgradientProofs5 Proofs.SubgradientRate6 Proofs.SubgradientRate7 Proofs.SubgradientAvg3.

(** With averaging='linear', 'squared' or none, whatever the shuffling, the start and the earlier fits (t is never
    reset, and the average goes on from the weights of the earlier fit): enough epochs bring the objective of the
    weights that fit leaves in self.w as close to the minimum as one likes. *)
Theorem C72_converges {X Y} (T : task X Y) d C t0 a (bm : bmodel X Y) S R2 L m eps : 0 < C -> 1 <= t0 -> (0 < length S)%nat -> sm_size (bm_s bm) = d ->
  oracle_exact (bm_s bm) T d S -> Forall (spread T R2) S -> length (start_weights d L) = d -> (0 < m)%nat -> 0 < eps ->
  exists N, forall prm warm shuf, averaged prm C t0 a -> equal_steps prm (length S) m -> online_mode prm \/ batches_exact bm T d S ->
  sg_break prm = false \/ mini_mode prm -> (forall it S', Permutation (shuf it S') S') -> same_rate prm (length S) warm L -> (N <= sg_max_iter prm)%nat ->
  exists w c, sg_fit prm bm shuf warm S L = Ok (SGLearner (sl_t L + sg_max_iter prm * m) (Some (w, C * ofN (length S), c))) /\ near_minimal T d C S w eps.
Proof. intros H1 H2 H3 H4 H5 H6 H7 H8 H9. exact (avg_equal T d C t0 a bm S R2 L H1 H2 H3 H4 H5 H6 H7 m eps H8 H9). Qed.

(** Two runs with any averaging, batches, shuffling: their weights get as close to each other as one likes. *)
Theorem C72_averages_agree {X Y} (T : task X Y) d C t0 (bm : bmodel X Y) S R2 L m eps : 0 < C -> 1 <= t0 -> (0 < length S)%nat -> sm_size (bm_s bm) = d ->
  oracle_exact (bm_s bm) T d S -> Forall (spread T R2) S -> length (start_weights d L) = d -> (0 < m)%nat -> 0 < eps ->
  exists N, forall a a' prm prm' warm warm' shuf shuf', averaged prm C t0 a -> averaged prm' C t0 a' -> equal_steps prm (length S) m -> equal_steps prm' (length S) m ->
  online_mode prm \/ batches_exact bm T d S -> online_mode prm' \/ batches_exact bm T d S -> sg_break prm = false \/ mini_mode prm -> sg_break prm' = false \/ mini_mode prm' ->
  (forall it S', Permutation (shuf it S') S') -> (forall it S', Permutation (shuf' it S') S') -> same_rate prm (length S) warm L -> same_rate prm' (length S) warm' L ->
  (N <= sg_max_iter prm)%nat -> (N <= sg_max_iter prm')%nat ->
  exists w c w' c', sg_fit prm bm shuf warm S L = Ok (SGLearner (sl_t L + sg_max_iter prm * m) (Some (w, C * ofN (length S), c))) /\
  sg_fit prm' bm shuf' warm' S L = Ok (SGLearner (sl_t L + sg_max_iter prm' * m) (Some (w', C * ofN (length S), c'))) /\ normsq (vsub w w') <= eps.
Proof. exact (modes_agree T d C t0 bm S R2 L m eps). Qed.

(** n_jobs <> 1: the averages, too, converge to the minimiser for C * n / n_batches instead of C. *)
Theorem C72_parallel_converges {X Y} (T : task X Y) d C t0 a (bm : bmodel X Y) S R2 L b eps : 0 < C -> 1 <= t0 -> (0 < length S)%nat -> sm_size (bm_s bm) = d ->
  oracle_exact (bm_s bm) T d S -> Forall (spread T R2) S -> length (start_weights d L) = d -> (0 < b)%nat -> 0 < eps ->
  exists N, forall prm warm shuf, averaged prm C t0 a -> parallel_steps prm b -> sg_break prm = false ->
  (forall it S', Permutation (shuf it S') S') -> same_rate prm (length S) warm L -> (N <= sg_max_iter prm)%nat ->
  exists w c, sg_fit prm bm shuf warm S L = Ok (SGLearner (sl_t L + sg_max_iter prm * batch_count (length S) b) (Some (w, C * ofN (length S), c))) /\
  near_minimal T d (C * ofN (length S) / ofN (batch_count (length S) b)) S w eps.
Proof. intros H1 H2 H3 H4 H5 H6 H7 H8 H9. exact (avg_parallel T d C t0 a bm S R2 L H1 H2 H3 H4 H5 H6 H7 b eps H8 H9). Qed.

(** Batches of different sizes without shuffling: samples in smaller batches count more. *)
Theorem C72_uneven_converges {X Y} (T : task X Y) d C t0 a (bm : bmodel X Y) S R2 L b eps : 0 < C -> 1 <= t0 -> (0 < length S)%nat -> sm_size (bm_s bm) = d ->
  oracle_exact (bm_s bm) T d S -> Forall (spread T R2) S -> length (start_weights d L) = d -> (1 < b)%Z -> batches_exact bm T d S -> 0 < eps ->
  exists N, forall prm warm shuf, averaged prm C t0 a -> sg_jobs prm = 1%Z -> sg_batch prm = Some b ->
  (forall it S', shuf it S' = S') -> same_rate prm (length S) warm L -> (N <= sg_max_iter prm)%nat ->
  exists w c, sg_fit prm bm shuf warm S L = Ok (SGLearner (sl_t L + sg_max_iter prm * batch_count (length S) (Z.to_nat b)) (Some (w, C * ofN (length S), c))) /\
  near_minimal_weighted T d (batch_factors C (length S) (even_sizes_of (length S) (batch_count (length S) (Z.to_nat b)))) S w eps.
Proof. intros H1 H2 H3 H4 H5 H6 H7 H8 H9 H10. exact (avg_uneven T d C t0 a bm S R2 L H1 H2 H3 H4 H5 H6 H7 b eps H8 H9 H10). Qed.

(** ** The hypotheses are met by the examples of C70 with any averaging. *)
Example C72_hypotheses_met a k :
  oracle_exact (bm_s ex10_bm) ex9_task 2 ex31_S /\ batches_exact ex10_bm ex9_task 2 ex31_S /\ Forall (spread ex9_task (1 + 1)) ex31_S /\ sm_size (bm_s ex10_bm) = 2%nat /\
  let online := SGParams 1 k 0 None 1 4 1 (ofN 10) None a false in
  averaged online 1 (ofN 10) a /\ equal_steps online (length ex31_S) 3 /\ online_mode online /\
  let full := SGParams 1 k 0 None 1 4 1 (ofN 10) (Some (-1)%Z) a true in
  averaged full 1 (ofN 10) a /\ equal_steps full (length ex31_S) 1 /\ mini_mode full /\
  same_rate online 3 true (SGLearner 7 (Some ([1; 0], ofN 3, []))) /\ parallel_steps (SGParams 1 k 0 None 2 4 1 (ofN 10) None a false) 2.
Proof.
  split; [apply ones_oracle, ex31_ones|]. split; [apply ones_batches, ex31_ones|]. split; [apply ones_spread, ex31_ones|]. split; [reflexivity|]. cbv zeta.
  split; [repeat split|]. split; [split; reflexivity|]. split; [split; [reflexivity|left; reflexivity]|].
  split; [repeat split|]. split; [split; [reflexivity|left; split; reflexivity]|]. split; [split; [reflexivity|exists (-1)%Z; split; [reflexivity|discriminate]]|].
  split; [|split; [reflexivity|split; [lia|left; split; reflexivity]]].
  intros _. exists [1; 0], []. cbn [sl_fitted sg_C]. replace (1 * ofN 3) with (ofN 3) by ring. reflexivity.
Qed.
(** The average and the last iterate differ: one epoch of three steps, learning rate 3 / (t + 1). *)
Example C72_average_value : map (fun a => match sg_fit (SGParams 1 1 0 None 1 4 1 1 None a false) ex10_bm (fun _ S => S) false ex31_S sg_new with
  | Ok (SGLearner t (Some (w, _, _))) => (t, map this w) | _ => (0%nat, []) end) [AvgNone; AvgLinear; AvgSquared] =
  [(3%nat, [0; 0]%Q); (3%nat, [1; -1]%Q); (3%nat, [9 # 14; -9 # 14]%Q)].
Proof. vm_compute. reflexivity. Qed.

Print Assumptions C72_converges.
Print Assumptions C72_averages_agree.
Print Assumptions C72_parallel_converges.
Print Assumptions C72_uneven_converges.

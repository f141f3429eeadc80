(** C96: SubgradientSSVM with a constant learning rate
    (learners/subgradient_ssvm.py 129-152, 154-243 with decay_exponent=0): full batches, and online or equal mini-batches. *)
From Coq Require Import ZArith Permutation.
From Verif Require Import Model.Subgradient Spec.SubgradientSpec Spec.SubgradientRateSpec Proofs.NSlackExamples Proofs.OneSlackExamples Proofs.SubgradientRate7
  Proofs.SubgradientConstant Proofs.SubgradientConstant2 Proofs.SubgradientConstant3.

(** With a rate of at most C * n the weights approach the minimiser up to a distance that is proportional to the rate.
    Full batches never end the training early. *)
Theorem C96_distance {X Y} (T : task X Y) d C lr (bm : bmodel X Y) S R2 L prm (warm : bool) shuf : 0 < C -> (0 < length S)%nat -> sm_size (bm_s bm) = d ->
  oracle_exact (bm_s bm) T d S -> batches_exact bm T d S -> 0 <= R2 -> Forall (spread T R2) S ->
  sg_C prm = C -> sg_momentum prm = 0 -> sg_decay prm = 0%nat -> sg_avg prm = AvgNone -> full_batch prm ->
  (forall it S', Permutation S' S -> Permutation (shuf it S') S) ->
  let K := C * ofN (length S) in
  0 < lr -> lr <= K -> (if warm then exists w c, sl_fitted L = Some (w, lr, c) else sg_lr prm = Some lr \/ sg_lr prm = None /\ lr = K) ->
  length (start_weights d L) = d -> normsq (start_weights d L) <= K * K * R2 ->
  let G := (1 + 1 + 1 + 1) * (K * K * R2) in
  let E := sg_max_iter prm in
  exists w c, sg_fit prm bm shuf warm S L = Ok (SGLearner (sl_t L + E) (Some (w, lr, c))) /\ length w = d /\ normsq w <= K * K * R2 /\
  forall u eps, near_minimal T d C S u eps ->
    let N := Qcpower (1 - lr / K) E * normsq (vsub (start_weights d L) u) + (1 - Qcpower (1 - lr / K) E) * (eps + eps + lr / K * G) in
    normsq (vsub w u) <= N /\ forall r, 0 <= r -> G * N <= r * r -> near_minimal T d C S w (eps + r).
Proof.
  intros HC Hn Hd HO HBx HR HSp <- HM HD HA HF HSh K Hlr HlK HL LW NW G E.
  destruct (const_fit T d prm bm S R2 lr shuf HC HM HD HA HF Hd HO HBx HSp HR Hn Hlr HlK HSh warm L LW NW HL) as [w [c [A1 [A2 [A3 [_ A4]]]]]].
  exists w, c. split; [exact A1|]. split; [exact A2|]. split; [exact A3|]. intros u eps HU N. assert (B := A4 u eps HU). split; [exact B|].
  intros r Hr HG. exact (const_value T d prm bm S R2 lr HC HM HD HA HF Hd HO HBx HSp HR Hn Hlr HlK w u eps N r A2 A3 HU B Hr HG).
Qed.
(** With learning_rate='auto' the last pass alone decides: the weights are C times the difference between the
    features of the training labels and those of one labelling. *)
Theorem C96_auto_forgets {X Y} (T : task X Y) d C (bm : bmodel X Y) S R2 L prm shuf : 0 < C -> (0 < length S)%nat -> sm_size (bm_s bm) = d ->
  oracle_exact (bm_s bm) T d S -> batches_exact bm T d S -> 0 <= R2 -> Forall (spread T R2) S ->
  sg_C prm = C -> sg_momentum prm = 0 -> sg_decay prm = 0%nat -> sg_avg prm = AvgNone -> full_batch prm ->
  (forall it S', Permutation S' S -> Permutation (shuf it S') S) -> sg_lr prm = None -> (0 < sg_max_iter prm)%nat ->
  length (start_weights d L) = d -> normsq (start_weights d L) <= C * ofN (length S) * (C * ofN (length S)) * R2 ->
  exists w c S' Yh, sg_fit prm bm shuf false S L = Ok (SGLearner (sl_t L + sg_max_iter prm) (Some (w, C * ofN (length S), c))) /\
    Permutation S' S /\ labelling T (map fst S') Yh /\
    w = vscale C (vsub (feat_sum T d (map fst S') (map snd S')) (feat_sum T d (map fst S') Yh)).
Proof.
  intros HC Hn Hd HO HBx HR HSp <- HM HD HA HF HSh HL Hk LW NW.
  destruct (const_fit T d prm bm S R2 (sg_C prm * ofN (length S)) shuf HC HM HD HA HF Hd HO HBx HSp HR Hn (Qcmult_pos _ _ HC (ofN_pos _ Hn)) (Qcle_refl _) HSh false L LW NW (or_intror (conj HL eq_refl)))
    as [w [c [A1 [_ [_ [A3 _]]]]]]. destruct (A3 Hk eq_refl) as [S' [Yh [B1 [B2 B3]]]]. exists w, c, S', Yh. auto.
Qed.
(** ... so training need not get near the minimum, however long: one sample, C = 10. *)
Theorem C96_auto_refuted : forall k, (0 < k)%nat -> exists w c,
  sg_fit (ex60_prm (ofN 10) None k) ex10_bm (fun _ S => S) false ex60_S sg_new = Ok (SGLearner k (Some (w, ofN 10, c))) /\ ~ near_minimal ex9_task 2 (ofN 10) ex60_S w 1.
Proof. exact auto_refuted. Qed.

(** Online and equal mini-batches: [m] steps in each of [E] passes.  objective_curve_ is extended by one value a pass and
    a last one; the best of the value at the start and those after all passes but the last is near any other weights'. *)
Theorem C96_online_best {X Y} (T : task X Y) d C lr (bm : bmodel X Y) S R2 L prm (warm : bool) shuf m c0 : 0 < C -> (0 < length S)%nat -> sm_size (bm_s bm) = d ->
  oracle_exact (bm_s bm) T d S -> online_mode prm \/ batches_exact bm T d S -> 0 <= R2 -> Forall (spread T R2) S ->
  sg_C prm = C -> sg_momentum prm = 0 -> sg_decay prm = 0%nat -> sg_avg prm = AvgNone -> equal_steps prm (length S) m -> sg_break prm = false \/ mini_mode prm ->
  (forall it S', Permutation S' S -> Permutation (shuf it S') S) ->
  let K := C * ofN (length S) in
  0 < lr -> lr <= K -> (if warm then exists w, sl_fitted L = Some (w, lr, c0) else c0 = [] /\ (sg_lr prm = Some lr \/ sg_lr prm = None /\ lr = K)) ->
  length (start_weights d L) = d -> normsq (start_weights d L) <= K * K * R2 -> (0 < sg_max_iter prm)%nat ->
  let E := sg_max_iter prm in
  exists w hw vs, sg_fit prm bm shuf warm S L = Ok (SGLearner (sl_t L + E * m) (Some (w, lr, c0 ++ vs ++ [primal_value C w hw]))) /\ length vs = E /\
  length w = d /\ normsq w <= K * K * R2 /\ hinges T w S hw /\
  forall h0 u hu, hinges T (start_weights d L) S h0 -> length u = d -> hinges T u S hu ->
    exists v, In v (firstn E (primal_value C (start_weights d L) h0 :: vs)) /\
      v <= primal_value C u hu + K / lr * normsq (vsub (start_weights d L) u) / ((1 + 1) * ofN (m * E)) + (1 + 1) * ofN m * (lr * K * R2).
Proof.
  intros HC Hn Hd HO HBx HR HSp <- HM HD HA HE HBr HSh K Hlr HlK HL LW NW HE0 E.
  exact (const_best T d bm S R2 lr shuf m prm warm L HC Hn Hd HO HBx HR HSp HM HD HA HE HBr HSh Hlr HlK c0 HL LW NW HE0).
Qed.

(** ** The hypotheses are met *)
Example C96_met k : let lr := Q2Qc (1 # 1000) in let prm := ex60_prm (ofN 10) (Some lr) k in
  sm_size (bm_s ex10_bm) = 2%nat /\ oracle_exact (bm_s ex10_bm) ex9_task 2 ex60_S /\ batches_exact ex10_bm ex9_task 2 ex60_S /\ Forall (spread ex9_task (1 + 1)) ex60_S /\
  sg_momentum prm = 0 /\ sg_decay prm = 0%nat /\ full_batch prm /\ lr <= ofN 10 * ofN (length ex60_S) /\ start_weights 2 sg_new = [0; 0] /\
  near_minimal ex9_task 2 (ofN 10) ex60_S [Q2Qc (1 # 2); Q2Qc (-1 # 2)] 0.
Proof.
  split; [reflexivity|]. split; [apply ones_oracle, ex60_ones|]. split; [apply ones_batches, ex60_ones|]. split; [apply ones_spread, ex60_ones|]. split; [reflexivity|]. split; [reflexivity|].
  split; [split; reflexivity|]. split; [vm_compute; discriminate|]. split; [reflexivity|exact ex60_minimal].
Qed.
(** rate 1/10 and C = 10: the weights after 1, 2, ... passes; 'auto': they jump to and fro *)
Example C96_values :
  map (fun k => match sg_fit (ex60_prm (ofN 10) (Some (Q2Qc (1 # 10))) k) ex10_bm (fun _ S => S) false ex60_S sg_new with
                | Ok (SGLearner _ (Some (w, _, _))) => map this w | _ => [] end) [1; 4; 5; 6; 7]%nat =
  [[1 # 10; -1 # 10]; [3940399 # 10000000; -3940399 # 10000000]; [490099501 # 1000000000; -490099501 # 1000000000]; [58519850599 # 100000000000; -58519850599 # 100000000000];
   [5793465209301 # 10000000000000; -5793465209301 # 10000000000000]]%Q /\
  map (fun k => match sg_fit (ex60_prm (ofN 10) None k) ex10_bm (fun _ S => S) false ex60_S sg_new with
                | Ok (SGLearner _ (Some (w, _, _))) => map this w | _ => [] end) [0; 1; 2; 3; 4]%nat =
  [[0; 0]; [10; -10]; [0; 0]; [10; -10]; [0; 0]]%Q.
Proof. vm_compute. split; reflexivity. Qed.
(** online, two samples and two passes: four steps *)
Example C96_online_met : let lr := Q2Qc (1 # 10) in let S := ex60_S ++ ex60_S in let prm := SGParams 1 2 0 (Some lr) 1 4 0 (ofN 10) None AvgNone false in
  oracle_exact (bm_s ex10_bm) ex9_task 2 S /\ batches_exact ex10_bm ex9_task 2 S /\ Forall (spread ex9_task (1 + 1)) S /\ online_mode prm /\ equal_steps prm (length S) 2 /\
  sg_break prm = false /\ lr <= 1 * ofN (length S) /\
  match sg_fit prm ex10_bm (fun _ S => S) false S sg_new with
  | Ok (SGLearner t (Some (w, _, c))) => (t, map this w, map this c) = (4%nat, [29679 # 80000; -29679 # 80000], [50321 # 40000; 4183563041 # 6400000000; 4183563041 # 6400000000])%Q
  | _ => False end.
Proof.
  assert (O : ones (ex60_S ++ ex60_S)) by (repeat constructor).
  split; [apply ones_oracle, O|]. split; [apply ones_batches, O|]. split; [apply ones_spread, O|]. split; [split; [reflexivity|left; reflexivity]|]. split; [split; reflexivity|].
  split; [reflexivity|]. split; [vm_compute; discriminate|]. vm_compute. reflexivity.
Qed.

Print Assumptions C96_distance.
Print Assumptions C96_online_best.
Print Assumptions C96_auto_forgets.
Print Assumptions C96_auto_refuted.

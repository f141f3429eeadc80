(** C98: SubgradientSSVM with full batches, a constant learning rate and inference that is not exact
    (learners/subgradient_ssvm.py 129-152, 154-243 with decay_exponent=0 and batch_size=-1). *)
From Coq Require Import ZArith Permutation.
From Verif Require Import Model.Subgradient Spec.NearSpec Spec.SubgradientSpec Spec.SubgradientRateSpec Proofs.NSlackExamples Proofs.OneSlackExamples Proofs.SubgradientRate7 Proofs.NearExamples
  Proofs.SubgradientConstant2 Proofs.SubgradientNear Proofs.SubgradientNear2.

(** The best objective recorded is within C n eps, the share of the start and the share of the rate of any weights'.
    Training is not cut short, the weights stay within C n R, and objective_curve_ has one value a pass and one for the result. *)
Theorem C98_best {X Y} (T : task X Y) d C lr eps (bm : bmodel X Y) S R2 L prm (warm : bool) shuf c0 : 0 < C -> (0 < length S)%nat -> sm_size (bm_s bm) = d -> sm_rescale (bm_s bm) = false ->
  (forall S', Permutation S' S -> batch_near eps bm T d (map fst S') (map snd S')) -> 0 <= R2 -> Forall (spread T R2) S ->
  sg_C prm = C -> sg_momentum prm = 0 -> sg_decay prm = 0%nat -> sg_avg prm = AvgNone -> full_batch prm ->
  (forall it S', Permutation S' S -> Permutation (shuf it S') S) ->
  let K := C * ofN (length S) in
  0 < lr -> lr <= K -> (if warm then exists w, sl_fitted L = Some (w, lr, c0) else c0 = [] /\ (sg_lr prm = Some lr \/ sg_lr prm = None /\ lr = K)) ->
  length (start_weights d L) = d -> normsq (start_weights d L) <= K * K * R2 -> (0 < sg_max_iter prm)%nat ->
  let E := sg_max_iter prm in
  exists w vs o0 o, sg_fit prm bm shuf warm S L = Ok (SGLearner (sl_t L + E) (Some (w, lr, c0 ++ vs ++ [o]))) /\ length vs = E /\ length w = d /\ normsq w <= K * K * R2 /\
  sg_objective prm bm S (start_weights d L) = Ok o0 /\ sg_objective prm bm S w = Ok o /\
  forall u hu, length u = d -> hinges T u S hu ->
    exists v, In v (firstn E (o0 :: vs)) /\
      v <= primal_value C u hu + K * eps + K / lr * normsq (vsub (start_weights d L) u) / ((1 + 1) * ofN E) + (1 + 1) * (lr * K * R2).
Proof.
  intros HC Hn Hd HRe HBN HR HSp <- HM HD HA HF HSh K Hlr HlK HL LW NW HE0 E.
  exact (near_best T d bm S R2 lr eps shuf prm warm L HC Hn Hd HRe HBN HR HSp HM HD HA HF HSh Hlr HlK c0 HL LW NW HE0).
Qed.
(** What is recorded for some weights never exceeds the true objective and falls short of it by at most C n eps. *)
Theorem C98_recorded {X Y} (T : task X Y) d (bm : bmodel X Y) S eps prm w o hs : 0 <= sg_C prm -> (0 < length S)%nat -> 0 <= eps -> oracle_near eps (bm_s bm) T d S -> length w = d ->
  sg_objective prm bm S w = Ok o -> hinges T w S hs -> o <= primal_value (sg_C prm) w hs /\ primal_value (sg_C prm) w hs <= o + sg_C prm * ofN (length S) * eps.
Proof. exact (objective_close T d bm S eps prm w o hs). Qed.

(** ** The hypotheses are met *)
Example C98_met : let prm := ex60_prm 1 (Some (Q2Qc (1 # 10))) 3 in let K := 1 * ofN (length ex62_S) in
  sm_size (bm_s (ex49_bm half)) = 2%nat /\ sm_rescale (bm_s (ex49_bm half)) = false /\ ~ oracle_exact (ex49_m half) ex9_task 2 (combine ex9_X ex9_Y) /\
  (forall S', Permutation S' ex62_S -> batch_near half (ex49_bm half) ex9_task 2 (map fst S') (map snd S')) /\ Forall (spread ex9_task (1 + 1)) ex62_S /\
  sg_momentum prm = 0 /\ sg_decay prm = 0%nat /\ sg_avg prm = AvgNone /\ full_batch prm /\ Q2Qc (1 # 10) <= K /\ start_weights 2 sg_new = [0; 0].
Proof.
  split; [reflexivity|]. split; [reflexivity|]. split; [exact ex49_not_exact|]. split; [intros S' HP; exact (ex62_all half ex62_S S' half_pos ex62_ones HP)|]. split; [apply ones_spread, ex62_ones|].
  split; [reflexivity|]. split; [reflexivity|]. split; [reflexivity|]. split; [split; reflexivity|]. split; [vm_compute; discriminate|reflexivity].
Qed.
(** No error; error 1/2: the weights shrink once no margin is violated by more than 1/2.  Error 1: nothing is learned and 0 is
    recorded at every pass, although the true objective is 3. *)
Example C98_values :
  map (fun eps => match sg_fit (ex60_prm 1 (Some (Q2Qc (1 # 10))) 4) (ex49_bm eps) (fun _ S => S) false ex62_S sg_new with
                | Ok (SGLearner _ (Some (w, _, c))) => (map this w, map this c) | _ => ([], []) end) [0; half; 1] =
  [([102719 # 270000; -102719 # 270000], [241 # 100; 167281 # 90000; 108823321 # 81000000; 62846412961 # 72900000000; 62846412961 # 72900000000]);
   ([75719 # 270000; -75719 # 270000], [241 # 100; 167281 # 90000; 6817321 # 81000000; 5733366961 # 72900000000; 5733366961 # 72900000000]);
   ([0; 0], [0; 0; 0; 0; 0])]%Q.
Proof. vm_compute. reflexivity. Qed.

Print Assumptions C98_best.
Print Assumptions C98_recorded.

(** Properties of SubgradientSSVM (learners/subgradient_ssvm.py): C30 (second part), C32, C55. *)
From Coq Require Import ZArith Permutation.
From Verif Require Import Model.Subgradient Model.BatchInstances Spec.TaskInstances Proofs.NSlackExamples Proofs.OneSlackExamples
  Proofs.SubgradientProofs Proofs.SubgradientProofs2 Proofs.SubgradientProofs3 Proofs.SubgradientProofs4 Proofs.SubgradientProofs5 Spec.SubgradientSpec.

(** * C30: averaging *)
(** Any number of steps along any feature differences, the counter starting at zero. *)
Theorem C30_subgradient_mean : forall prm n lr tr st,
  sg_avg prm <> AvgNone -> length (sg_self st) = length (sg_w st) -> sg_t st = O -> tr <> [] -> sg_trace prm n lr st tr ->
  forall i, get1 (sg_self (last tr st)) i = weighted_mean (avg_weight (sg_avg prm)) (map (fun s => get1 (sg_w s) i) tr).
Proof. exact mean_value. Qed.
(** A whole call of fit, on a new learner or a fitted one, with or without warm start.  A later
    call continues the old average: its start counts like sl_t steps. *)
Theorem C30_subgradient_fit : forall {X Y} prm (bm : bmodel X Y) shuf warm S L L',
  (forall it S, length (shuf it S) = length S) -> sg_fit prm bm shuf warm S L = Ok L' ->
  exists lr w0 w c tr,
    w0 = match sl_fitted L with Some (w, _, _) => w | None => vzero (sm_size (bm_s bm)) end /\
    sg_trace prm (length S) lr (SGState w0 w0 (vzero (sm_size (bm_s bm))) (sl_t L)) tr /\
    sl_fitted L' = Some (w, lr, c) /\ sl_t L' = (sl_t L + length tr)%nat /\ length w = length w0 /\
    match sg_avg prm with
    | AvgNone => w = last (map sg_w tr) w0
    | a => forall i, total (avg_weight a) (sl_t L') * get1 w i =
             total (avg_weight a) (sl_t L) * get1 w0 i + weighted_sum (avg_weight a) (Datatypes.S (sl_t L)) (map (fun s => get1 (sg_w s) i) tr)
    end.
Proof. intros X Y. exact fit_average. Qed.

(** * C32: every step is a subgradient step *)
Theorem C32_online_step : forall {X Y} (T : task X Y) d prm (m : smodel X Y) n lr p st, 0 < sg_C prm -> (0 < n)%nat ->
  implements m T d (fst p) (snd p) -> exact_laug m T (sg_w st) (fst p) (snd p) -> can_step prm n (sg_t st) -> shaped d st -> sg_momentum prm = 0 ->
  exists st' h g, sg_online_step prm m n lr p st = Ok (st', Qcltb 0 h) /\ is_hinge T (sg_w st) (fst p) (snd p) h /\ shaped d st' /\
    step_against prm n lr g st st' /\ strong_subgradient T d (sg_C prm * ofN n) [p] (sg_w st) g.
Proof.
  intros X Y T d prm m n lr p st HC Hn HI HE HS SH HM.
  destruct (online_step_dir T d prm HC m n lr p st Hn HI HE HS SH HM) as [st' [h [g [A1 [A2 [A3 [A4 [A5 _]]]]]]]]. exists st', h, g. auto.
Qed.
Theorem C32_mini_batch_step : forall {X Y} (T : task X Y) d prm (bm : bmodel X Y) n lr B st, 0 < sg_C prm -> (0 < n)%nat -> B <> [] ->
  sm_rescale (bm_s bm) = false -> batch_exact bm T d (map fst B) (map snd B) -> can_step prm n (sg_t st) -> shaped d st -> sg_momentum prm = 0 ->
  exists st' g, sg_mini_step prm bm n lr B st = Ok st' /\ shaped d st' /\ step_against prm n lr g st st' /\
    strong_subgradient T d (sg_C prm * ofN n / ofN (length B)) B (sg_w st) g.
Proof.
  intros X Y T d prm bm n lr B st HC Hn HB HR HE HS SH HM.
  destruct (mini_step_dir T d prm HC bm n lr B st Hn HB HR HE HS SH HM) as [st' [g [A1 [A2 [A3 [A4 _]]]]]]. exists st', g. auto.
Qed.
(** A parallel batch weighs its samples |B| times as much as the other modes do. *)
Theorem C32_parallel_step : forall {X Y} (T : task X Y) d prm (m : smodel X Y) n lr B st, 0 < sg_C prm -> (0 < n)%nat -> sm_size m = d ->
  oracle_exact m T d B -> can_step prm n (sg_t st) -> shaped d st -> sg_momentum prm = 0 ->
  exists st' k g, sg_par_step prm m n lr B st = Ok (st', k) /\ shaped d st' /\ step_against prm n lr g st st' /\
    strong_subgradient T d (sg_C prm * ofN n) B (sg_w st) g.
Proof.
  intros X Y T d prm m n lr B st HC Hn Hd HO HS SH HM.
  destruct (par_step_dir T d prm m n lr B st HC Hn Hd HO HS SH HM) as [st' [k [g [A1 [A2 [A3 [A4 _]]]]]]]. exists st', k, g. auto.
Qed.
(** ... so that with one batch of all samples it leaves the minimiser, where full-batch training
    stays. *)
Theorem C32_parallel_objective_refuted : exists hs st1 st2 p2 hs2,
  hinges ex9_task ex12_w ex12_S hs /\
  (forall w' hs', length w' = 2%nat -> hinges ex9_task w' ex12_S hs' -> primal_value (Q2Qc (1 # 8)) ex12_w hs <= primal_value (Q2Qc (1 # 8)) w' hs') /\
  sg_epoch (ex12_prm 1 (Some (-1)%Z)) ex10_bm ex12_K ex12_S ex12_st = Ok (st1, (-1)%Z) /\ sg_w st1 = ex12_w /\
  sg_epoch (ex12_prm 2 None) ex10_bm ex12_K ex12_S ex12_st = Ok (st2, p2) /\
  hinges ex9_task (sg_w st2) ex12_S hs2 /\ primal_value (Q2Qc (1 # 8)) ex12_w hs < primal_value (Q2Qc (1 # 8)) (sg_w st2) hs2.
Proof. exact parallel_away. Qed.
(** Regret of the default schedule: over all visits of fit the cost of the weights in use exceeds
    that of any fixed weights by at most a logarithmic term. *)
Theorem C32_online_regret : forall {X Y} (T : task X Y) d prm R2, 0 < sg_C prm -> sg_momentum prm = 0 -> sg_decay prm = 1%nat ->
  1 <= sg_t0 prm -> 0 <= R2 -> sg_lr prm = None -> forall (bm : bmodel X Y) shuf S L',
  (0 < length S)%nat -> sm_size (bm_s bm) = d -> online_mode prm ->
  (forall it S, Permutation (shuf it S) S) -> oracle_exact (bm_s bm) T d S -> Forall (spread T R2) S ->
  sg_fit prm bm shuf false S sg_new = Ok L' ->
  let K := sg_C prm * ofN (length S) in let st0 := SGState (vzero d) (vzero d) (vzero d) 0 in
  exists V, sg_visits prm (bm_s bm) (length S) K st0 V /\ Forall (fun q => In (fst q) S) V /\ length V = sl_t L' /\
    forall u hs hu, length u = d -> visit_hinges T (befores st0 V) hs -> visit_hinges T (map (fun q => (fst q, u)) V) hu ->
      online_cost K (befores st0 V) hs <= online_cost K (map (fun q => (fst q, u)) V) hu +
        (sg_t0 prm - 1) * normsq u / (1 + 1) + (1 + 1) * (K * K * R2) * harmonic (sg_t0 prm) 0 (length V).
Proof. intros X Y. exact fit_online_regret. Qed.
(** Full-batch training: objective_curve_ itself obeys the bound, and its last entry is the
    objective of the returned weights. *)
Theorem C32_full_batch_regret : forall {X Y} (T : task X Y) d prm R2, 0 < sg_C prm -> sg_momentum prm = 0 -> sg_decay prm = 1%nat ->
  1 <= sg_t0 prm -> 0 <= R2 -> sg_lr prm = None -> forall (bm : bmodel X Y) S,
  (0 < length S)%nat -> sm_size (bm_s bm) = d -> sm_rescale (bm_s bm) = false -> batch_exact bm T d (map fst S) (map snd S) ->
  Forall (spread T R2) S -> full_batch prm -> sg_avg prm = AvgNone ->
  let K := sg_C prm * ofN (length S) in
  exists w lr c, sg_fit prm bm (fun _ S => S) false S sg_new = Ok (SGLearner (sg_max_iter prm) (Some (w, lr, c))) /\
    length w = d /\ length c = Datatypes.S (sg_max_iter prm) /\
    (exists hf, hinges T w S hf /\ last c 0 = primal_value (sg_C prm) w hf) /\
    forall u h0 hu, length u = d -> hinges T (vzero d) S h0 -> hinges T u S hu ->
      lsum (firstn (sg_max_iter prm) (primal_value (sg_C prm) (vzero d) h0 :: c)) <=
      ofN (sg_max_iter prm) * primal_value (sg_C prm) u hu + (sg_t0 prm - 1) * normsq u / (1 + 1) +
      (1 + 1) * (K * K * R2) * harmonic (sg_t0 prm) 0 (sg_max_iter prm).
Proof. intros X Y. exact fit_full_regret. Qed.

(** * C55: stopping and failing *)
Theorem C55_mini_batch_never_stops_early : forall {X Y} prm (bm : bmodel X Y) shuf S L w lr c t, mini_mode prm ->
  sg_fit prm bm shuf false S L = Ok (SGLearner t (Some (w, lr, c))) -> length c = Datatypes.S (sg_max_iter prm).
Proof. intros X Y. exact mini_fit_length. Qed.
(** Online training stops early only after an epoch in which every visited sample had no hinge
    loss. *)
Theorem C55_online_early_stop : forall {X Y} (T : task X Y) d prm (bm : bmodel X Y) shuf S L w lr c t, online_mode prm ->
  (forall it S, Permutation (shuf it S) S) -> oracle_exact (bm_s bm) T d S -> sm_size (bm_s bm) = d ->
  (forall w lr c, sl_fitted L = Some (w, lr, c) -> length w = d) ->
  sg_fit prm bm shuf false S L = Ok (SGLearner t (Some (w, lr, c))) -> (length c <= sg_max_iter prm)%nat ->
  sg_break prm = true /\ exists st0 V, Permutation (map fst V) S /\ sg_visits prm (bm_s bm) (length S) lr st0 V /\
    w = sg_self (last (map snd V) st0) /\ visit_hinges T (befores st0 V) (map (fun _ => 0) V).
Proof. intros X Y. exact online_stop. Qed.
(** The weights returned then are not those of the epoch: the last step was still taken. *)
Theorem C55_early_stop_weights_refuted : exists w lr c t,
  sg_fit (SGParams 1 5 0 (Some 1) 1 1 0 1 None AvgNone true) ex10_bm (fun _ S => S) false [([1], 0%nat)] sg_new =
    Ok (SGLearner t (Some (w, lr, c))) /\ (length c <= 5)%nat /\ hinges ex9_task w [([1], 0%nat)] [1].
Proof. exact early_stop_weights. Qed.
Theorem C55_online_succeeds : forall {X Y} (T : task X Y) d prm (bm : bmodel X Y) n, 0 < sg_C prm -> 0 < sg_t0 prm -> (0 < n)%nat -> online_mode prm ->
  forall shuf S L, length S = n -> (forall it S, Permutation (shuf it S) S) -> sm_size (bm_s bm) = d -> oracle_ok (bm_s bm) T d S ->
  (forall w lr c, sl_fitted L = Some (w, lr, c) -> length w = d) -> exists L', sg_fit prm bm shuf false S L = Ok L'.
Proof. intros X Y. exact fit_total. Qed.
Theorem C55_parallel_with_batch_size : forall {X Y} prm (bm : bmodel X Y) shuf S L b, (0 < sg_max_iter prm)%nat -> sg_jobs prm <> 1%Z ->
  sg_batch prm = Some b -> sg_fit prm bm shuf false S L = Err ValueError.
Proof. intros X Y. exact jobs_batch. Qed.
Theorem C55_no_jobs : forall {X Y} prm (bm : bmodel X Y) shuf S L, (0 < sg_max_iter prm)%nat -> sg_jobs prm = 0%Z ->
  sg_batch prm = None -> sg_fit prm bm shuf false S L = Err ZeroDivisionError.
Proof. intros X Y. exact jobs_zero. Qed.
Theorem C55_bad_batch_size : forall {X Y} prm (bm : bmodel X Y) shuf S L b, (0 < sg_max_iter prm)%nat -> sg_jobs prm = 1%Z ->
  sg_batch prm = Some b -> (b < -1 \/ b = 0)%Z -> sg_fit prm bm shuf false S L = Err (if (b =? 0)%Z then ZeroDivisionError else ValueError).
Proof. intros X Y. exact batch_bad. Qed.
Theorem C55_C_zero : forall {X Y} (T : task X Y) d prm (bm : bmodel X Y) shuf S, (0 < sg_max_iter prm)%nat -> online_mode prm -> S <> [] ->
  (forall it S, Permutation (shuf it S) S) -> sm_size (bm_s bm) = d -> oracle_ok (bm_s bm) T d S -> sg_C prm = 0 ->
  sg_fit prm bm shuf false S sg_new = Err NonFinite.
Proof. intros X Y. exact online_C0. Qed.
Theorem C55_decay_t0_zero : forall {X Y} (T : task X Y) d prm (bm : bmodel X Y) shuf S, (0 < sg_max_iter prm)%nat -> online_mode prm -> S <> [] ->
  (forall it S, Permutation (shuf it S) S) -> sm_size (bm_s bm) = d -> oracle_ok (bm_s bm) T d S -> sg_C prm <> 0 -> sg_t0 prm = 0 -> sg_decay prm <> O ->
  sg_fit prm bm shuf false S sg_new = Err ZeroDivisionError.
Proof. intros X Y. exact online_t0. Qed.
Theorem C55_rescaled_mini_batch_never : forall prm m shuf S L r, mini_mode prm -> (0 < sg_max_iter prm)%nat -> mc_rescale m = true ->
  sg_fit prm (mc_bmodel m) shuf false S L = Ok r -> False.
Proof. exact rescale_mini. Qed.

(** * the hypotheses are met, and values *)
Example C32_hypotheses_met : batch_exact ex10_bm ex9_task 2 (map fst ex12_S) (map snd ex12_S) /\ Forall (spread ex9_task (1 + 1)) ex12_S /\
  full_batch (ex12_prm 1 (Some (-1)%Z)) /\ online_mode (ex12_prm 1 None) /\ can_step (ex12_prm 1 None) 2 0 /\ shaped 2 ex12_st.
Proof.
  split; [exact ex12_exact|]. split.
  - assert (P : spread ex9_task (1 + 1) ([1], 0%nat)).
    { intros [|[|y]] H; [vm_compute; discriminate|vm_compute; discriminate|]. cbn in H. exfalso. lia. }
    constructor; [exact P|]. constructor; [exact P|]. constructor.
  - split; [split; reflexivity|]. split; [split; [reflexivity|left; reflexivity]|]. split; [|repeat split]. split; [discriminate|]. intros _. discriminate.
Qed.
Example C30_fit_computed :
  let S := [([1], 0%nat); ([1 + 1], 1%nat)] in
  match sg_fit (SGParams (Q2Qc (1 # 8)) 2 0 None 1 1 1 1 None AvgLinear false) ex10_bm (fun _ S => S) false S sg_new,
        sg_fit (SGParams (Q2Qc (1 # 8)) 2 0 None 1 1 1 1 None AvgSquared false) ex10_bm (fun _ S => S) false S sg_new,
        sg_fit (SGParams (Q2Qc (1 # 8)) 2 (1 / ofN 2) (Some 1) 1 1 0 1 (Some (-1)%Z) AvgNone false) ex10_bm (fun _ S => rev S) false S sg_new with
  | Ok (SGLearner t (Some (w, lr, c))), Ok (SGLearner t2 (Some (w2, lr2, c2))), Ok (SGLearner t3 (Some (w3, lr3, c3))) =>
      t = 4%nat /\ this lr = (1 # 4)%Q /\ map this w = [-1 # 20; 1 # 20]%Q /\ map this c = [1 # 4; 6 # 25; 6 # 25]%Q /\
      map this w2 = [-3 # 40; 3 # 40]%Q /\ t3 = 2%nat /\ map this w3 = [-1 # 8; 1 # 8]%Q /\ length c3 = 3%nat
  | _, _, _ => False
  end.
Proof. vm_compute. repeat split; reflexivity. Qed.
Example C55_failures_computed :
  sg_fit (ex12_prm 2 (Some 1%Z)) ex10_bm (fun _ S => S) false ex12_S sg_new = Err ValueError /\
  sg_fit (ex12_prm 0 None) ex10_bm (fun _ S => S) false ex12_S sg_new = Err ZeroDivisionError /\
  sg_fit (ex12_prm 1 (Some 0%Z)) ex10_bm (fun _ S => S) false ex12_S sg_new = Err ZeroDivisionError /\
  sg_fit (SGParams 0 1 0 None 1 1 1 1 None AvgNone true) ex10_bm (fun _ S => S) false ex12_S sg_new = Err NonFinite /\
  sg_fit (SGParams 1 1 0 None 1 1 1 0 None AvgNone true) ex10_bm (fun _ S => S) false ex12_S sg_new = Err ZeroDivisionError /\
  sg_fit (ex12_prm 1 (Some (-1)%Z)) (mc_bmodel (MC 2 1 [1; 1] true true)) (fun _ S => S) false ex12_S sg_new = Err ValueError.
Proof. vm_compute. auto 10. Qed.

Print Assumptions C30_subgradient_mean.
Print Assumptions C30_subgradient_fit.
Print Assumptions C32_online_step.
Print Assumptions C32_mini_batch_step.
Print Assumptions C32_parallel_step.
Print Assumptions C32_parallel_objective_refuted.
Print Assumptions C32_online_regret.
Print Assumptions C32_full_batch_regret.
Print Assumptions C55_mini_batch_never_stops_early.
Print Assumptions C55_online_early_stop.
Print Assumptions C55_early_stop_weights_refuted.
Print Assumptions C55_online_succeeds.
Print Assumptions C55_parallel_with_batch_size.
Print Assumptions C55_no_jobs.
Print Assumptions C55_bad_batch_size.
Print Assumptions C55_C_zero.
Print Assumptions C55_decay_t0_zero.
Print Assumptions C55_rescaled_mini_batch_never.

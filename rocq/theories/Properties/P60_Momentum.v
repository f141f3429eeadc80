(** C99: SubgradientSSVM with momentum (learners/subgradient_ssvm.py 129-152, 154-312), and SubgradientLatentSSVM
    (learners/subgradient_latent_ssvm.py 108-237), which shares the step. *)
From Coq Require Import ZArith.
From Verif Require Import Model.Subgradient Model.SubgradientLatent Spec.SubgradientRateSpec Spec.MomentumSpec Proofs.OneSlackExamples Proofs.SubgradientConstant2 Proofs.LatentCurve2
  Proofs.MomentumProofs Proofs.MomentumProofs2.

(** One step: momentum times the old direction, the rest for the new one. *)
Theorem C99_step prm n lr dj st st' : solve_subgradient prm n lr dj st = Ok st' -> forall i,
  get1 (sg_grad st') i = (1 - sg_momentum prm) * (get1 dj i - get1 (sg_w st) i / (sg_C prm * ofN n)) + sg_momentum prm * get1 (sg_grad st) i /\
  get1 (sg_w st') i = get1 (sg_w st) i + rate_at prm lr (sg_t st) * get1 (sg_grad st') i.
Proof. exact (momentum_step prm n lr dj st st'). Qed.
(** Training in any mode is a run of such steps; each moves along the fading sum of the directions of this call of fit:
    those of earlier calls are forgotten, also on a warm start. *)
Theorem C99_fit {X Y} prm (bm : bmodel X Y) shuf (warm : bool) S L L' : (forall it S, length (shuf it S) = length S) -> sg_fit prm bm shuf warm S L = Ok L' ->
  exists lr w c l, let st0 := SGState (start_weights (sm_size (bm_s bm)) L) (start_weights (sm_size (bm_s bm)) L) (vzero (sm_size (bm_s bm))) (sl_t L) in
    sg_run prm (length S) lr st0 l /\ L' = SGLearner (sl_t L + length l) (Some (w, lr, c)) /\ w = sg_self (run_end st0 l) /\
    forall l1 dj st l2, l = l1 ++ (dj, st) :: l2 -> forall i,
      get1 (sg_w st) i = get1 (sg_w (run_end st0 l1)) i + rate_at prm lr (sl_t L + length l1) *
        ((1 - sg_momentum prm) * fading_sum (sg_momentum prm) (map (fun g => get1 g i) (plain_directions (sg_C prm) (length S) st0 (l1 ++ [(dj, st)])))).
Proof. exact (momentum_fit prm bm shuf warm S L L'). Qed.
(** With momentum between 0 and 1 no direction is longer than the longest one without momentum. *)
Theorem C99_bound prm n lr G : 0 <= sg_momentum prm -> sg_momentum prm <= 1 -> forall l st, sg_run prm n lr st l -> normsq (sg_grad st) <= G ->
  Forall (fun g => normsq g <= G) (plain_directions (sg_C prm) n st l) -> normsq (sg_grad (run_end st l)) <= G.
Proof. exact (momentum_bound prm n lr G). Qed.
(** Momentum 1, which the constructor accepts: nothing is learned, in any mode and with any averaging. *)
Theorem C99_one {X Y} prm (bm : bmodel X Y) shuf (warm : bool) S L L' : sg_momentum prm = 1 -> (forall it S, length (shuf it S) = length S) -> sg_fit prm bm shuf warm S L = Ok L' ->
  exists lr c, sl_fitted L' = Some (start_weights (sm_size (bm_s bm)) L, lr, c).
Proof. exact (momentum_one prm bm shuf warm S L L'). Qed.

(** The same for SubgradientLatentSSVM, online and parallel; [w0] are its random initial weights. *)
Theorem C99_latent_fit {X Y} prm (m : lmodel X Y) w0 (warm : bool) S L L' : lsg_fit prm m w0 warm S L = Ok L' ->
  exists lr w c l, let ws := match sl_fitted L with Some (w, _, _) => w | None => w0 end in let st0 := SGState ws ws (vzero (sm_size (lm_s m))) (sl_t L) in
    sg_run prm (length S) lr st0 l /\ L' = SGLearner (sl_t L + length l) (Some (w, lr, c)) /\ w = sg_self (run_end st0 l) /\
    forall l1 dj st l2, l = l1 ++ (dj, st) :: l2 -> forall i,
      get1 (sg_w st) i = get1 (sg_w (run_end st0 l1)) i + rate_at prm lr (sl_t L + length l1) *
        ((1 - sg_momentum prm) * fading_sum (sg_momentum prm) (map (fun g => get1 g i) (plain_directions (sg_C prm) (length S) st0 (l1 ++ [(dj, st)])))).
Proof. exact (latent_momentum_fit prm m w0 warm S L L'). Qed.
Theorem C99_latent_one {X Y} prm (m : lmodel X Y) w0 (warm : bool) S L L' : sg_momentum prm = 1 -> lsg_fit prm m w0 warm S L = Ok L' ->
  exists lr c, sl_fitted L' = Some (match sl_fitted L with Some (w, _, _) => w | None => w0 end, lr, c).
Proof. exact (latent_momentum_one prm m w0 warm S L L'). Qed.

(** ** The hypotheses are met *)
(** weights and number of steps after 1, 2, 3 passes with momentum 0, 1/2, 1 *)
Example C99_values :
  map (fun mo => map (fun k => match sg_fit (SGParams 1 k mo (Some (Q2Qc (1 # 10))) 1 4 0 (ofN 10) (Some (-1)%Z) AvgNone true) ex10_bm (fun _ S => S) false ex60_S sg_new with
                | Ok (SGLearner t (Some (w, _, _))) => (t, map this w) | _ => (0%nat, []) end) [1; 2; 3]%nat) [0; Q2Qc (1 # 2); 1] =
  [[(1%nat, [1 # 10; -1 # 10]); (2%nat, [19 # 100; -19 # 100]); (3%nat, [271 # 1000; -271 # 1000])];
   [(1%nat, [1 # 20; -1 # 20]); (2%nat, [49 # 400; -49 # 400]); (3%nat, [1621 # 8000; -1621 # 8000])];
   [(1%nat, [0; 0]); (2%nat, [0; 0]); (3%nat, [0; 0])]]%Q.
Proof. vm_compute. reflexivity. Qed.

Example C99_latent_values :
  map (fun mo => match lsg_fit (SGParams (ofN 10) 1 mo (Some (ofN 4)) 1 1 0 1 None AvgNone false) ex55_m ex55_w0 false ex55_S sg_new with
                | Ok (SGLearner t (Some (w, _, _))) => (t, map this w) | _ => (0%nat, []) end) [0; Q2Qc (1 # 2); 1] =
  [(2%nat, [-68 # 25; 0; 68 # 25; 0; 0; 0; 0; 0; 0]); (2%nat, [-12 # 25; 0; 12 # 25; 0; 0; 0; 0; 0; 0]); (2%nat, [2; 0; -2; 0; 0; 0; 0; 0; 0])]%Q.
Proof. vm_compute. reflexivity. Qed.

Print Assumptions C99_step.
Print Assumptions C99_latent_fit.
Print Assumptions C99_latent_one.
Print Assumptions C99_fit.
Print Assumptions C99_bound.
Print Assumptions C99_one.

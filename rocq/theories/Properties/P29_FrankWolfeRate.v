(** C68: FrankWolfeSSVM converges (learners/frankwolfe_ssvm.py). *)
From Coq Require Import Permutation.
From Verif Require Import Model.FrankWolfe Spec.FWRateSpec Proofs.NSlackExamples Proofs.OneSlackExamples Proofs.FrankWolfeProofs4
  Proofs.FrankWolfeProofs3 Proofs.CuttingPlane5 Proofs.FWRate3 Proofs.FWRate5 Proofs.FWRate6.

(** ** batch mode *)
(** Both step rules: after [j] steps the dual objective misses the optimum, or any lower bound [p] of it, by at most
    C n 2 K / (j + 2), and the returned weights are correspondingly close to those of any near-optimal solution. *)
Theorem C68_batch_rate : forall (X Y : Type) (T : task X Y) (d : nat) (prm : fw_params) (Xs : list X) (Ys : list Y) (bm : bmodel X Y) (R L : Qc),
  (0 < length Xs)%nat -> 0 < fw_C prm -> fw_usable T d Xs Ys bm -> batch_exact bm T d Xs Ys -> bounded T R L (combine Xs Ys) ->
  forall (sched : nat -> list nat) (w : list Qc) (l : Qc) (primal curve : list Qc),
  fw_batch prm = true -> fw_fit prm bm Xs Ys sched None = Ok (w, l, primal, curve) ->
  let k := (length curve - 1)%nat in
  (0 < k <= fw_max_iter prm)%nat /\
  (forall p,
    (forall w' hs', length w' = d -> hinges T w' (combine Xs Ys) hs' -> p <= primal_value (fw_C prm) w' hs') ->
    (forall j, (0 < j < k)%nat ->
       p <= get1 curve j + fw_C prm * ofN (length Xs) * ((1 + 1) * batch_curvature (length Xs) (fw_C prm) R / (ofN j + (1 + 1)))) /\
    (forall w' hs', length w' = d -> hinges T w' (combine Xs Ys) hs' ->
       normsq (vsub w w') / (1 + 1) <=
         primal_value (fw_C prm) w' hs' - p + fw_C prm * ofN (length Xs) * ((1 + 1) * batch_curvature (length Xs) (fw_C prm) R / (ofN k + (1 + 1))))).
Proof. exact (fun X Y => @batch_rate X Y). Qed.
(** Line search: with enough iterations it stops by itself, with a gap below C n tol, and the returned weights, one step
    further on, are near the optimum. *)
Theorem C68_batch_stops : forall (X Y : Type) (T : task X Y) (d : nat) (prm : fw_params) (Xs : list X) (Ys : list Y) (bm : bmodel X Y) (R L : Qc),
  (0 < length Xs)%nat -> 0 < fw_C prm -> fw_usable T d Xs Ys bm -> batch_exact bm T d Xs Ys -> bounded T R L (combine Xs Ys) ->
  fw_line prm = true -> 0 < fw_tol prm -> fw_tol prm <= batch_curvature (length Xs) (fw_C prm) R ->
  forall k0 j0, (0 < k0)%nat ->
  ofN 4 * (batch_curvature (length Xs) (fw_C prm) R * batch_curvature (length Xs) (fw_C prm) R) <
    ofN j0 * (fw_tol prm * fw_tol prm) * (ofN k0 + (1 + 1)) ->
  forall sched, fw_batch prm = true -> (k0 + j0 <= fw_max_iter prm)%nat ->
  exists w p c Pv o Dv, fw_fit prm bm Xs Ys sched None = Ok (w, 0, p ++ [Pv; o], c ++ [Dv; Dv]) /\
    (length c < k0 + j0)%nat /\ Pv - Dv < fw_C prm * ofN (length Xs) * fw_tol prm /\
    (forall w' hs', length w' = d -> hinges T w' (combine Xs Ys) hs' -> Dv <= primal_value (fw_C prm) w' hs') /\
    (forall s, 0 <= s -> fw_C prm * ofN (length Xs) * fw_tol prm <= s * s ->
       within T d (fw_C prm) (combine Xs Ys) w
         (fw_C prm * ofN (length Xs) * fw_tol prm + ((1 + 1) * (fw_C prm * ofN (length Xs)) * R * s + s * s / (1 + 1)))).
Proof. exact (fun X Y => @batch_stops X Y). Qed.
(** That further step matters: the gap that ended training is not that of the returned weights. *)
Theorem C68_batch_certificate_refuted :
  exists (prm : fw_params) (w : list Qc) (l Pv o Dv : Qc),
    fw_usable ex9_task 2 ex9_X ex9_Y ex10_bm /\ batch_exact ex10_bm ex9_task 2 ex9_X ex9_Y /\ 0 < fw_C prm /\ fw_batch prm = true /\
    fw_fit prm ex10_bm ex9_X ex9_Y ex11_sched None = Ok (w, l, [Pv; o], [Dv; Dv]) /\
    Pv - Dv < fw_C prm * ofN (length ex9_X) * fw_tol prm /\
    ~ within ex9_task 2 (fw_C prm) (combine ex9_X ex9_Y) w (fw_C prm * ofN (length ex9_X) * fw_tol prm).
Proof.
  destruct ex29_fit as [l [o E]]. exists ex29_prm, [ofN 4; - ofN 4], l, (ofN 4), o, 0. split; [exact (proj1 ex29_usable)|]. split; [exact (proj2 ex29_usable)|].
  split; [reflexivity|]. split; [reflexivity|]. split; [exact E|]. split; [vm_compute; reflexivity|exact ex29_far].
Qed.

(** ** block-coordinate mode, line search, every pass visiting every sample once *)
(** Without averaging: at most [M] checks fail, and then the weights are within tol of the optimum. *)
Theorem C68_plain_converges : forall (X Y : Type) (T : task X Y) (d : nat) (prm : fw_params) (Xs : list X) (Ys : list Y) (bm : bmodel X Y) (R L : Qc) (sched : nat -> list nat),
  (0 < length Xs)%nat -> 0 <= fw_C prm -> fw_usable T d Xs Ys bm -> batch_exact bm T d Xs Ys -> bounded T R L (combine Xs Ys) ->
  fw_line prm = true -> passes (length Xs) sched -> (0 < fw_check prm)%nat ->
  forall (delta : Qc) (M : nat), 0 < delta -> delta * delta <= bc_curvature (fw_C prm) R ->
  fw_C prm * ofN (length Xs) * L < ofN (S M) * bc_gain (fw_C prm) R delta ->
  fw_batch prm = false -> fw_avg prm = false -> bc_gap (length Xs) (fw_C prm) R delta < fw_tol prm -> (fw_check prm * M < fw_max_iter prm)%nat ->
  exists w l p c Pv Dv, fw_fit prm bm Xs Ys sched None = Ok (w, l, p ++ [Pv; Pv], c ++ [Dv; Dv]) /\ (length c <= M)%nat /\
    Pv - Dv < fw_tol prm /\ within T d (fw_C prm) (combine Xs Ys) w (fw_tol prm).
Proof. exact (fun X Y => @plain_converges X Y). Qed.
(** With averaging (the default). *)
Theorem C68_average_converges : forall (X Y : Type) (T : task X Y) (d : nat) (prm : fw_params) (Xs : list X) (Ys : list Y) (bm : bmodel X Y) (R L : Qc) (sched : nat -> list nat),
  (0 < length Xs)%nat -> 0 <= fw_C prm -> fw_usable T d Xs Ys bm -> batch_exact bm T d Xs Ys -> bounded T R L (combine Xs Ys) ->
  fw_line prm = true -> passes (length Xs) sched -> (0 < fw_check prm)%nat ->
  forall (delta : Qc) (M : nat), 0 < delta -> delta * delta <= bc_curvature (fw_C prm) R ->
  fw_C prm * ofN (length Xs) * L < ofN (S M) * bc_gain (fw_C prm) R delta ->
  fw_batch prm = false ->
  forall q, fw_avg prm = true ->
  bc_gap' (length Xs) (fw_C prm) R delta + (1 + 1) * worst_gap (length Xs) (fw_C prm) R L * ofN (2 * M + 1) / ofN (S (fw_check prm * q)) < fw_tol prm ->
  (fw_check prm * q < fw_max_iter prm)%nat ->
  exists w l p c Pv Dv, fw_fit prm bm Xs Ys sched None = Ok (w, l, p ++ [Pv; Pv], c ++ [Dv; Dv]) /\ (length c <= q)%nat /\
    Pv - Dv < fw_tol prm /\ within T d (fw_C prm) (combine Xs Ys) w (fw_tol prm).
Proof. exact (fun X Y => @average_converges X Y). Qed.
(** So for every tolerance there is a number of iterations that is enough, whatever the order of the samples. *)
Theorem C68_converges : forall (X Y : Type) (T : task X Y) d C tol check avg (Xs : list X) (Ys : list Y) (bm : bmodel X Y) R L,
  (0 < length Xs)%nat -> 0 <= C -> fw_usable T d Xs Ys bm -> batch_exact bm T d Xs Ys -> bounded T R L (combine Xs Ys) -> 0 < tol -> (0 < check)%nat ->
  exists N, forall max_iter sched, (N <= max_iter)%nat -> passes (length Xs) sched ->
  exists w l p c Pv Dv, fw_fit (FWParams C max_iter tol false true check avg) bm Xs Ys sched None = Ok (w, l, p ++ [Pv; Pv], c ++ [Dv; Dv]) /\
    (length c < N)%nat /\ Pv - Dv < tol /\ within T d C (combine Xs Ys) w tol.
Proof. exact (fun X Y => @rate_exists X Y). Qed.

(** ** concrete cases *)
Example C68_hypotheses_met :
  fw_usable ex9_task 2 ex9_X ex9_Y ex10_bm /\ batch_exact ex10_bm ex9_task 2 ex9_X ex9_Y /\ bounded ex9_task (Q2Qc (3 # 2)) 1 (combine ex9_X ex9_Y) /\
  passes (length ex9_X) ex11_sched.
Proof. split; [exact (proj1 ex29_usable)|]. split; [exact (proj2 ex29_usable)|]. split; [exact ex29_bounded|]. intro it. apply Permutation_refl. Qed.
(** numbers meeting the premises of the four theorems: C = 1, R = 3/2, L = 1 *)
Example C68_numbers :
  ofN 4 * (batch_curvature 1 1 (Q2Qc (3 # 2)) * batch_curvature 1 1 (Q2Qc (3 # 2))) < ofN 20 * (1 * 1) * (ofN 20 + (1 + 1)) /\
  1 <= batch_curvature 1 1 (Q2Qc (3 # 2)) /\
  1 * 1 <= bc_curvature 1 (Q2Qc (3 # 2)) /\ 1 * ofN 1 * 1 < ofN (S 18) * bc_gain 1 (Q2Qc (3 # 2)) 1 /\ bc_gap 1 1 (Q2Qc (3 # 2)) 1 < ofN 5 /\
  bc_gap' 1 1 (Q2Qc (3 # 2)) 1 + (1 + 1) * worst_gap 1 1 (Q2Qc (3 # 2)) 1 * ofN (2 * 18 + 1) / ofN (S (10 * 10)) < ofN 12.
Proof. repeat split; vm_compute; (reflexivity || discriminate). Qed.
Print Assumptions C68_batch_rate.
Print Assumptions C68_batch_stops.
Print Assumptions C68_batch_certificate_refuted.
Print Assumptions C68_plain_converges.
Print Assumptions C68_average_converges.
Print Assumptions C68_converges.

(** C93: what primal_objective_curve_ records.
    pystruct/learners/n_slack_ssvm.py 283-400, one_slack_ssvm.py 460-543. *)
From Coq Require Import ZArith.
From Verif Require Import Model.NSlack Model.OneSlack Spec.NSlackSpec Spec.OneSlackSpec
  Proofs.NSlackProofs3 Proofs.NSlackExamples Proofs.OneSlackProofs2 Proofs.OneSlackExamples Proofs.PrimalCurve Proofs.PrimalCurve2 Proofs.PrimalCurve3 Proofs.PrimalCurve4
  Spec.BatchCurveSpec Proofs.PrimalCurve5 Proofs.PrimalCurve6.

(** n-slack, the whole sample in one batch: entry i of a round adds the hinge losses at the
    weights before the round to the norm of the weights after it; so it is the primal value
    before the round plus half the change of the squared norm.  The last entry is the primal
    value of the returned weights. *)
Theorem C93_nslack_entries :
  forall (X Y : Type) (T : task X Y) (d : nat) (yeq : Y -> Y -> bool) (solve : qp_solver) (prm : ns_params)
         (Xs : list X) (Ys : list Y),
    0 <= ns_C prm -> length Xs = length Ys -> qp_sound solve ->
    forall (m : smodel X Y) (sw : option (smodel X Y)) old st curve primal reason, sm_size m = d ->
    oracle_exact m T d (combine Xs Ys) -> (forall m2, sw = Some m2 -> oracle_exact m2 T d (combine Xs Ys)) ->
    batch_slices (ns_batch prm) (length Xs) = Ok [(O, length Xs)] ->
    ns_fit yeq solve prm m sw Xs Ys None old = Ok (st, curve, primal, reason) ->
    exists ws, length ws = length primal /\ nth 0 ws [] = vzero d /\ nth (length primal - 1) ws [] = st_w st /\
      Forall (fun v => length v = d) ws /\
      (forall i, (S i < length primal)%nat -> exists hs, hinges T (nth i ws []) (combine Xs Ys) hs /\
         nth i primal 0 = primal_value (ns_C prm) (nth i ws []) hs + (normsq (nth (S i) ws []) - normsq (nth i ws [])) / (1 + 1)) /\
      exists hs, hinges T (st_w st) (combine Xs Ys) hs /\ nth (length primal - 1) primal 0 = primal_value (ns_C prm) (st_w st) hs.
Proof. exact (fun X Y => @ns_entries X Y). Qed.

(** Corrected by that change, every entry is above every entry of objective_curve_. *)
Theorem C93_nslack_corrected_gap :
  forall (X Y : Type) (T : task X Y) (d : nat) (yeq : Y -> Y -> bool) (solve : qp_solver) (prm : ns_params)
         (Xs : list X) (Ys : list Y),
    0 <= ns_C prm -> length Xs = length Ys -> qp_sound solve ->
    forall (m : smodel X Y) (sw : option (smodel X Y)) old st curve primal reason, sm_size m = d ->
    oracle_exact m T d (combine Xs Ys) -> (forall m2, sw = Some m2 -> oracle_exact m2 T d (combine Xs Ys)) ->
    batch_slices (ns_batch prm) (length Xs) = Ok [(O, length Xs)] ->
    ns_fit yeq solve prm m sw Xs Ys None old = Ok (st, curve, primal, reason) ->
    (forall o, In o curve -> o <= nth (length primal - 1) primal 0) /\
    exists ws, length ws = length primal /\ nth 0 ws [] = vzero d /\ nth (length primal - 1) ws [] = st_w st /\
      forall i o, (S i < length primal)%nat -> In o curve ->
        o <= nth i primal 0 + (normsq (nth i ws []) - normsq (nth (S i) ws [])) / (1 + 1).
Proof.
  intros X Y T d yeq solve prm Xs Ys HC HL HS m sw old st curve primal reason Hd HO HSW EB H.
  destruct (ns_entries T d yeq solve prm Xs Ys HC HL HS m sw old st curve primal reason Hd HO HSW EB H) as [ws [A1 [A2 [A3 [A4 [A5 [hs [A6 A7]]]]]]]].
  destruct (fit_lower_bound T d yeq solve prm m sw Xs Ys HC HL Hd (exact_is_ok _ _ _ _ HO) (fun m2 E => exact_is_ok _ _ _ _ (HSW m2 E)) old st curve primal reason HS H) as [B1 [B2 _]].
  split. { intros o Ho. rewrite A7. apply (B2 o Ho); assumption. }
  exists ws. repeat (split; [assumption|]). intros i o Hi Ho. destruct (A5 i Hi) as [hi [C1 C2]].
  rewrite C2. rewrite Forall_forall in A4.
  replace (primal_value (ns_C prm) (nth i ws []) hi + (normsq (nth (S i) ws []) - normsq (nth i ws [])) / (1 + 1) + (normsq (nth i ws []) - normsq (nth (S i) ws [])) / (1 + 1))
    with (primal_value (ns_C prm) (nth i ws []) hi) by (field; discriminate).
  apply (B2 o Ho); [|exact C1]. apply A4. apply nth_In. rewrite A1. apply Nat.lt_trans with (S i); [apply Nat.lt_succ_diag_r|exact Hi].
Qed.

(** Uncorrected it is not: with an exact QP solver and exact inference, an entry can be below
    the entry of objective_curve_ of the same round and below the optimum of the training
    problem, so the duality gap read off the curves is negative. *)
Theorem C93_nslack_gap_refuted :
  exists (X Y : Type) (T : task X Y) (d : nat) (yeq : Y -> Y -> bool) (solve : qp_solver) (prm : ns_params) (m : smodel X Y)
    (Xs : list X) (Ys : list Y) (st : ns_state Y) (curve primal : list Qc),
  qp_exact solve /\ oracle_exact m T d (combine Xs Ys) /\ sm_size m = d /\ 0 < ns_C prm /\
  batch_slices (ns_batch prm) (length Xs) = Ok [(O, length Xs)] /\
  ns_fit yeq solve prm m None Xs Ys None None = Ok (st, curve, primal, NoNewConstraint) /\
  exists i, (i < length primal)%nat /\ nth i primal 0 < nth i curve 0 /\
    forall w hs, length w = d -> hinges T w (combine Xs Ys) hs -> nth i primal 0 < primal_value (ns_C prm) w hs.
Proof. exact primal_below. Qed.

(** A fit that ends because a pass finds nothing new, whatever the batches: the last two
    entries are both the primal value of the returned weights. *)
Theorem C93_nslack_last_entries :
  forall (X Y : Type) (T : task X Y) (d : nat) (yeq : Y -> Y -> bool) (solve : qp_solver) (prm : ns_params)
         (Xs : list X) (Ys : list Y),
    0 <= ns_C prm -> length Xs = length Ys -> qp_sound solve ->
    forall (m : smodel X Y) (sw : option (smodel X Y)) old st curve primal, sm_size m = d ->
    oracle_exact m T d (combine Xs Ys) -> (forall m2, sw = Some m2 -> oracle_exact m2 T d (combine Xs Ys)) -> Xs <> [] ->
    ns_fit yeq solve prm m sw Xs Ys None old = Ok (st, curve, primal, NoNewConstraint) ->
    exists es hs, hinges T (st_w st) (combine Xs Ys) hs /\
      primal = (es ++ [primal_value (ns_C prm) (st_w st) hs; primal_value (ns_C prm) (st_w st) hs])%list.
Proof. exact (fun X Y => @ns_last_entries X Y). Qed.

(** n-slack with any batches: entry i adds C times the hinge losses of the batches, each batch at
    the weights before it (the first at the weights before the round), to half the squared norm
    of the weights after the round.  The last entry is the primal value of the returned weights. *)
Theorem C93_nslack_batches :
  forall (X Y : Type) (T : task X Y) (d : nat) (yeq : Y -> Y -> bool) (solve : qp_solver) (prm : ns_params)
         (Xs : list X) (Ys : list Y),
    0 <= ns_C prm -> length Xs = length Ys -> qp_sound solve ->
    forall (m : smodel X Y) (sw : option (smodel X Y)) old st curve primal reason bs, sm_size m = d ->
    oracle_exact m T d (combine Xs Ys) -> (forall m2, sw = Some m2 -> oracle_exact m2 T d (combine Xs Ys)) -> Xs <> [] ->
    batch_slices (ns_batch prm) (length Xs) = Ok bs ->
    ns_fit yeq solve prm m sw Xs Ys None old = Ok (st, curve, primal, reason) ->
    exists ws, length ws = length primal /\ nth 0 ws [] = vzero d /\ nth (length primal - 1) ws [] = st_w st /\
      Forall (fun v => length v = d) ws /\
      (forall i, (S i < length primal)%nat -> exists vs r, batch_losses T (combine Xs Ys) bs vs r /\
         Forall (fun v => length v = d) vs /\ hd [] vs = nth i ws [] /\
         nth i primal 0 = ns_C prm * r + normsq (nth (S i) ws []) / (1 + 1)) /\
      exists hs, hinges T (st_w st) (combine Xs Ys) hs /\ nth (length primal - 1) primal 0 = primal_value (ns_C prm) (st_w st) hs.
Proof. exact (fun X Y => @ns_entries_batches X Y). Qed.
(** If the features of two outputs differ by at most R and the weights before the batches of the
    round are within D of the weights [w] after it, such an entry is within C n D R of the primal
    value of [w]. *)
Theorem C93_nslack_batches_near :
  forall (X Y : Type) (T : task X Y) (d : nat) (prm : ns_params) (Xs : list X) (Ys : list Y),
    0 <= ns_C prm -> length Xs = length Ys ->
    forall (m : smodel X Y) bs vs r e w R D hs, oracle_exact m T d (combine Xs Ys) ->
    batch_slices (ns_batch prm) (length Xs) = Ok bs ->
    0 <= R -> (forall p y', In p (combine Xs Ys) -> t_label T (fst p) y' ->
                 normsq (vsub (t_feat T (fst p) (snd p)) (t_feat T (fst p) y')) <= R * R) ->
    0 <= D -> length w = d -> batch_losses T (combine Xs Ys) bs vs r -> Forall (fun v => length v = d) vs ->
    (forall v, In v vs -> normsq (vsub v w) <= D * D) ->
    e = ns_C prm * r + normsq w / (1 + 1) -> hinges T w (combine Xs Ys) hs ->
    e <= primal_value (ns_C prm) w hs + ns_C prm * (ofN (length Xs) * (D * R)) /\
    primal_value (ns_C prm) w hs <= e + ns_C prm * (ofN (length Xs) * (D * R)).
Proof. exact (fun X Y => @entry_near X Y). Qed.

(** one-slack: every entry belongs to weights [v] that training went through; it is at most
    their primal value, and equal to it when cached_constraint_ says that the constraint was
    not taken from the cache.  The final entry is the primal value of the returned weights. *)
Theorem C93_oneslack_entries :
  forall (X Y : Type) (T : task X Y) (d : nat) (ceq : Y -> Y -> res bool) (solve : qp_solver) (prm : os_params)
         (Xs : list X) (Ys : list Y),
    (0 < length Xs)%nat -> 0 <= o_C prm -> qp_sound solve ->
    forall (bm : bmodel X Y) (sw : option (bmodel X Y)) st reason,
    batch_exact bm T d Xs Ys /\ (o_cache prm = O \/ sm_rescale (bm_s bm) = false) ->
    (forall b, sw = Some b -> batch_exact b T d Xs Ys /\ (o_cache prm = O \/ sm_rescale (bm_s b) = false)) ->
    os_fit ceq solve prm bm sw Xs Ys Cold = Ok (st, reason) ->
    exists tr v hs,
      o_primal st = (map (fun e => snd (fst e)) tr ++ [primal_value (o_C prm) (o_w st) hs])%list /\
      hinges T (o_w st) (combine Xs Ys) hs /\ o_cached st = (map snd tr ++ [v])%list /\ v = false /\ length (o_w st) = d /\
      Forall (fun e : list Qc * Qc * bool => length (fst (fst e)) = d /\
        exists hs, hinges T (fst (fst e)) (combine Xs Ys) hs /\ snd (fst e) <= primal_value (o_C prm) (fst (fst e)) hs /\
          (snd e = false -> snd (fst e) = primal_value (o_C prm) (fst (fst e)) hs)) tr.
Proof. exact (fun X Y => @os_entries X Y). Qed.

(** Hence an entry whose constraint was not cached is above every entry of objective_curve_,
    and their difference bounds how far the weights of that round are from optimal. *)
Theorem C93_oneslack_gap :
  forall (X Y : Type) (T : task X Y) (d : nat) (ceq : Y -> Y -> res bool) (solve : qp_solver) (prm : os_params)
         (Xs : list X) (Ys : list Y),
    (0 < length Xs)%nat -> 0 <= o_C prm -> qp_sound solve ->
    forall (bm : bmodel X Y) (sw : option (bmodel X Y)) st reason,
    batch_exact bm T d Xs Ys /\ (o_cache prm = O \/ sm_rescale (bm_s bm) = false) ->
    (forall b, sw = Some b -> batch_exact b T d Xs Ys /\ (o_cache prm = O \/ sm_rescale (bm_s b) = false)) ->
    os_fit ceq solve prm bm sw Xs Ys Cold = Ok (st, reason) ->
    length (o_cached st) = length (o_primal st) /\
    forall i, (i < length (o_primal st))%nat -> nth i (o_cached st) true = false ->
      exists v hs, length v = d /\ hinges T v (combine Xs Ys) hs /\ nth i (o_primal st) 0 = primal_value (o_C prm) v hs /\
        forall o, In o (o_curve st) -> o <= nth i (o_primal st) 0 /\
          forall w' hs', length w' = d -> hinges T w' (combine Xs Ys) hs' ->
            primal_value (o_C prm) v hs <= primal_value (o_C prm) w' hs' + (nth i (o_primal st) 0 - o).
Proof. exact (fun X Y => @os_gap X Y). Qed.

(** An entry whose constraint was taken from the cache need not be: with an exact QP solver and
    exact inference it can be below the optimum of the training problem and below an entry of
    objective_curve_. *)
Theorem C93_oneslack_cached_gap_refuted :
  exists (X Y : Type) (T : task X Y) (d : nat) (ceq : Y -> Y -> res bool) (solve : qp_solver) (prm : os_params) (bm : bmodel X Y)
    (Xs : list X) (Ys : list Y) (st : os_state Y),
  qp_exact solve /\ batch_exact bm T d Xs Ys /\ sm_rescale (bm_s bm) = false /\ 0 < o_C prm /\
  os_fit ceq solve prm bm None Xs Ys Cold = Ok (st, OSNoConstraint) /\
  exists i, (i < length (o_primal st))%nat /\ nth i (o_cached st) false = true /\ (exists o, In o (o_curve st) /\ nth i (o_primal st) 0 < o) /\
    forall w hs, length w = d -> hinges T w (combine Xs Ys) hs -> nth i (o_primal st) 0 < primal_value (o_C prm) w hs.
Proof. exact cached_below. Qed.

(** ** The hypotheses are met *)
Example C93_nslack_met :
  qp_exact ex54_solver /\ qp_sound ex54_solver /\ oracle_exact ex54_m ex54_T 1 (combine [tt] [0%nat]) /\
  batch_slices (ns_batch ex54_prm) 1 = Ok [(0, 1)%nat] /\
  exists st, ns_fit Nat.eqb ex54_solver ex54_prm ex54_m None [tt] [0%nat] None None =
    Ok (st, [Q2Qc (5 # 8); Q2Qc (7 # 8); Q2Qc (7 # 8); Q2Qc (7 # 8)], [Q2Qc (13 # 8); Q2Qc (5 # 8); Q2Qc (7 # 8); Q2Qc (7 # 8)], NoNewConstraint) /\
    st_w st = [Q2Qc (1 # 2)].
Proof.
  split; [exact ex54_exact_qp|]. split; [intros p x v H; destruct (ex54_exact_qp p x v H) as [[A _] B]; auto|].
  split; [exact ex54_oracle|]. split; [reflexivity|exact ex54_run].
Qed.
(** the default batch_size and any other that is not smaller than the sample *)
Example C93_one_batch_met :
  batch_slices 100 7 = Ok [(0, 7)%nat] /\ batch_slices (-1) 7 = Ok [(0, 7)%nat] /\ batch_slices 3 7 = Ok [(0, 3); (3, 5); (5, 7)]%nat.
Proof. vm_compute. auto. Qed.
(** a batch per sample: the first entry, 17/8 = 9/8 + 1/2 + 1/2, has the loss 9/8 of the first
    sample at the zero weights and the loss 1/2 of the second at the weights after the first batch *)
Example C93_batches_met :
  qp_sound ex58_solver /\ oracle_exact ex54_m ex54_T 1 (combine [tt; tt] [0%nat; 0%nat]) /\
  batch_slices (ns_batch ex58_prm) 2 = Ok [(0, 1); (1, 2)]%nat /\
  (forall p y', In p (combine [tt; tt] [0%nat; 0%nat]) -> t_label ex54_T (fst p) y' ->
     normsq (vsub (t_feat ex54_T (fst p) (snd p)) (t_feat ex54_T (fst p) y')) <= 1 * 1) /\
  match ns_fit Nat.eqb ex58_solver ex58_prm ex54_m None [tt; tt] [0%nat; 0%nat] None None with
  | Ok (st, c, p, r) => (map this (st_w st), map this c, map this p, r) =
      ([1], [5 # 8; 5 # 8; 5 # 8; 5 # 8], [17 # 8; 3 # 2; 3 # 2; 3 # 2], NoNewConstraint)%Q
  | _ => False end.
Proof. split; [exact ex58_sound|]. split; [exact ex58_oracle|]. split; [reflexivity|]. split; [exact ex58_near|exact ex58_run]. Qed.
Example C93_oneslack_met :
  (0 < length ex9_X)%nat /\ 0 <= o_C (ex10_prm 5 2) /\ qp_sound ex10_solver /\
  batch_exact ex10_bm ex9_task 2 ex9_X ex9_Y /\ sm_rescale (bm_s ex10_bm) = false /\
  match os_fit (fun a b => Ok (a =? b)%nat) ex10_solver (ex10_prm 5 2) ex10_bm None ex9_X ex9_Y Cold with
  | Ok (st, OSNoConstraint) => map this (o_primal st) = [1; 1#4]%Q /\ map this (o_curve st) = [1#4; 1#4]%Q /\ o_cached st = [false; false]
  | _ => False
  end.
Proof.
  destruct (ex10_ok 5 2) as [_ [A [B [_ [C _]]]]]. split; [repeat constructor|]. split; [exact B|]. split; [exact A|]. split; [exact C|]. split; [reflexivity|]. vm_compute. auto.
Qed.
(** ... also by a run that uses the cache: 33/25 is below 25/18 *)
Example C93_oneslack_cached_met :
  qp_sound ex56_solver /\ batch_exact (base_bmodel ex56_m) ex56_T 1 ex56_X ex56_Y /\ sm_rescale ex56_m = false /\
  match os_fit ex56_ceq ex56_solver ex56_prm (base_bmodel ex56_m) None ex56_X ex56_Y Cold with
  | Ok (st, OSNoConstraint) => map this (o_primal st) = [7#2; 37#25; 33#25; 45#32; 25#18]%Q /\ map this (o_curve st) = [49#50; 61#50; 41#32; 25#18; 25#18]%Q /\
      o_cached st = [false; false; true; false; false]
  | _ => False
  end.
Proof.
  split; [intros p x v E; destruct (ex56_exact p x v E) as [[A _] B]; auto|]. split; [exact ex56_batch|]. split; [reflexivity|]. vm_compute. auto.
Qed.
Print Assumptions C93_oneslack_cached_gap_refuted.
Print Assumptions C93_nslack_entries.
Print Assumptions C93_nslack_corrected_gap.
Print Assumptions C93_nslack_gap_refuted.
Print Assumptions C93_nslack_last_entries.
Print Assumptions C93_nslack_batches.
Print Assumptions C93_nslack_batches_near.
Print Assumptions C93_oneslack_entries.
Print Assumptions C93_oneslack_gap.

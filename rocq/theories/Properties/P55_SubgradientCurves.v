(** C94: what objective_curve_ of the subgradient learners records
    (subgradient_latent_ssvm.py 133-237, subgradient_ssvm.py 154-243). *)
From Coq Require Import ZArith.
From Verif Require Import Model.LatentGraph Model.LatentLearner Model.SubgradientLatent Model.ChainCRF Model.BatchInstances Spec.LatentCurveSpec
  Proofs.NSlackExamples Proofs.OneSlackExamples Proofs.LatentProofs5 Proofs.PrimalCurve3 Proofs.LatentCurve Proofs.LatentCurve2
  Model.LatentNode Spec.LatentNodeSpec Proofs.LatentNodeProofs4 Spec.ParallelCurveSpec Proofs.ParallelCurve Proofs.ParallelCurve2.

(** SubgradientSSVM: an entry per pass, each the objective of the attribute w after that pass; then
    the objective of the weights returned.  A pass that ends the training early has no entry. *)
Theorem C94_plain_entries : forall {X Y} prm (bm : bmodel X Y) shuf warm S L t w lr c, sg_fit prm bm shuf warm S L = Ok (SGLearner t (Some (w, lr, c))) ->
  exists st Ps Qs os o, sg_passes prm bm lr shuf 0 S st Ps /\ sg_t st = sl_t L /\
    sg_w st = (match sl_fitted L with Some (v, _, _) => v | None => vzero (sm_size (bm_s bm)) end) /\
    w = sg_self (fst (last Ps (st, S))) /\ (Ps = [] -> w = sg_w st) /\
    c = (if warm then match sl_fitted L with Some (_, _, c0) => c0 | None => [] end else []) ++ os ++ [o] /\
    Forall2 (fun o q => sg_objective prm bm (snd q) (sg_self (fst q)) = Ok o) os Qs /\ sg_objective prm bm (snd (last Ps (st, S))) w = Ok o /\
    ((Qs = Ps /\ length Ps = sg_max_iter prm) \/ (exists q, Ps = Qs ++ [q] /\ (length Ps <= sg_max_iter prm)%nat /\ sg_break prm = true)).
Proof. intros X Y. exact sg_fit_entries. Qed.
(** SubgradientLatentSSVM, n_jobs = 1: an entry per pass, but each adds up the slacks met on the
    way, at changing weights, and the norm of the weights at the end of the pass. *)
Theorem C94_latent_entries : forall {X Y} prm (m : lmodel X Y) w0 warm S L t w lr c, sg_jobs prm = 1%Z -> lsg_fit prm m w0 warm S L = Ok (SGLearner t (Some (w, lr, c))) ->
  exists st Ps Qs o, lsg_passes prm m lr S st Ps /\ sg_t st = sl_t L /\
    (match sl_fitted L with Some (v, _, _) => sg_w st = v /\ sg_self st = v | None => sg_w st = w0 /\ sg_self st = w0 end) /\
    w = sg_self (passes_end st Ps) /\ t = sg_t (passes_end st Ps) /\
    c = (if warm then match sl_fitted L with Some (_, _, c0) => c0 | None => [] end else []) ++ pass_entries (sg_C prm) st Qs ++ [o] /\
    latent_objective m (sg_C prm) w S = Ok o /\
    ((Qs = Ps /\ length Ps = sg_max_iter prm) \/
     (exists V, Ps = Qs ++ [V] /\ (length Ps <= sg_max_iter prm)%nat /\ sg_break prm = true /\ Forall (fun v => snd v <= 0) V)).
Proof. intros X Y. exact fit_entries. Qed.
(** The slack of a visit is the latent hinge loss at the weights before its step. *)
Theorem C94_latent_slack : forall {X Y} (T : task X Y) E d (m : lmodel X Y) prm n lr p st st' sl, sm_rescale (lm_s m) = false ->
  length (sg_w st) = d -> latent_exact m T E d (sg_w st) p -> lsg_online_step prm m n lr p st = Ok (st', sl) ->
  is_latent_hinge T E (sg_w st) (fst p) (snd p) sl.
Proof. intros X Y T E d m prm n lr p st st' sl HR. exact (visit_slack T E d m HR prm n lr p st st' sl). Qed.
(** If the weights stay within D during a pass and features differ by at most R, the entry is
    within C n R D of the latent objective at the end of the pass. *)
Theorem C94_latent_gap : forall {X Y} (T : task X Y) E d (m : lmodel X Y) prm n lr R D V st vs, sm_rescale (lm_s m) = false ->
  0 <= sg_C prm -> length (sg_self (pass_end st V)) = d -> 0 <= R -> 0 <= D -> lsg_visits prm m n lr st V ->
  Forall (fun v => length v = d /\ normsq (vsub v (sg_self (pass_end st V))) <= D * D /\ Forall (latent_exact m T E d v) (map (fun v => fst (fst v)) V)) (looked_at st V) ->
  Forall (fun p => forall z h, t_label T (fst p) z -> E (fst p) (snd p) h -> normsq (vsub (t_feat T (fst p) z) (t_feat T (fst p) h)) <= R * R) (map (fun v => fst (fst v)) V) ->
  latent_hinges T E (sg_self (pass_end st V)) (map (fun v => fst (fst v)) V) vs ->
  pass_entry (sg_C prm) st V - primal_value (sg_C prm) (sg_self (pass_end st V)) vs <= sg_C prm * (ofN (length V) * (R * D)) /\
  primal_value (sg_C prm) (sg_self (pass_end st V)) vs - pass_entry (sg_C prm) st V <= sg_C prm * (ofN (length V) * (R * D)).
Proof. intros X Y T E d m prm n lr R D V st vs HR. exact (pass_gap T E d m HR prm n lr R D V st vs). Qed.
(** n_jobs = -1: an entry per pass again; the slacks of a batch are all met at the weights before
    it. *)
Theorem C94_parallel_entries : forall {X Y} prm (m : lmodel X Y) w0 warm S L t w lr c, sg_jobs prm = (-1)%Z -> lsg_fit prm m w0 warm S L = Ok (SGLearner t (Some (w, lr, c))) ->
  exists st Ps Qs o, par_passes prm m lr S st Ps /\ sg_t st = sl_t L /\
    (match sl_fitted L with Some (v, _, _) => sg_w st = v /\ sg_self st = v | None => sg_w st = w0 /\ sg_self st = w0 end) /\
    w = sg_self (par_passes_end st Ps) /\ t = sg_t (par_passes_end st Ps) /\
    c = (if warm then match sl_fitted L with Some (_, _, c0) => c0 | None => [] end else []) ++ par_entries (sg_C prm) st Qs ++ [o] /\
    latent_objective m (sg_C prm) w S = Ok o /\
    ((Qs = Ps /\ length Ps = sg_max_iter prm) \/
     (exists V, Ps = Qs ++ [V] /\ (length Ps <= sg_max_iter prm)%nat /\ sg_break prm = true /\ Forall (fun s => s <= 0) (concat (map snd V)))).
Proof. intros X Y. exact par_fit_entries. Qed.
(** If the loss charges visible labels, they are latent hinge losses. *)
Theorem C94_parallel_slack : forall {X Y} (T : task X Y) E d (m : lmodel X Y) w B cs, sm_rescale (lm_s m) = false -> length w = d ->
  Forall (latent_exact m T E d w) B -> Forall (right_loss m T E) B ->
  mapM (fun p => find_constraint_latent m (fst p) (snd p) w) B = Ok cs -> latent_hinges T E w B (map (fun c => snd (fst c)) cs).
Proof. intros X Y T E d m w B cs H1 H2. exact (batch_slacks T E d m w H1 H2 B cs). Qed.
(** If the weights before the batches are within D of those at the end of the pass and features
    differ by at most R, the entry is within C n R D of the latent objective at the end. *)
Theorem C94_parallel_gap : forall {X Y} (T : task X Y) E d (m : lmodel X Y) prm n lr R D V st vs, sm_rescale (lm_s m) = false ->
  0 <= sg_C prm -> length (sg_self (par_end st V)) = d -> 0 <= R -> 0 <= D -> par_batches prm m n lr st V ->
  Forall (fun v => length v = d /\ normsq (vsub v (sg_self (par_end st V))) <= D * D /\ Forall (latent_exact m T E d v) (concat (map (fun v => fst (fst v)) V))) (par_looked_at st V) ->
  Forall (right_loss m T E) (concat (map (fun v => fst (fst v)) V)) ->
  Forall (fun p => forall z h, t_label T (fst p) z -> E (fst p) (snd p) h -> normsq (vsub (t_feat T (fst p) z) (t_feat T (fst p) h)) <= R * R) (concat (map (fun v => fst (fst v)) V)) ->
  latent_hinges T E (sg_self (par_end st V)) (concat (map (fun v => fst (fst v)) V)) vs ->
  par_entry (sg_C prm) st V - primal_value (sg_C prm) (sg_self (par_end st V)) vs <= sg_C prm * (ofN (length (concat (map (fun v => fst (fst v)) V))) * (R * D)) /\
  primal_value (sg_C prm) (sg_self (par_end st V)) vs - par_entry (sg_C prm) st V <= sg_C prm * (ofN (length (concat (map (fun v => fst (fst v)) V))) * (R * D)).
Proof. intros X Y T E d m prm n lr R D V st vs HR. exact (par_gap T E d m HR prm n lr R D V st vs). Qed.
(** Nothing better: with exact inference and completion an entry can lie below the latent
    objective of all weights. *)
Theorem C94_latent_entries_refuted : exists t w lr o1 o2, lsg_fit ex55_prm ex55_m ex55_w0 false ex55_S sg_new = Ok (SGLearner t (Some (w, lr, [o1; o2]))) /\
  (forall v p, In v (looked_at ex55_st ex55_V) -> In p ex55_S -> latent_exact ex55_m (lg_task ex14_g) (lg_E ex14_g) 9 v p) /\
  forall v vs, latent_hinges (lg_task ex14_g) (lg_E ex14_g) v ex55_S vs -> o1 < primal_value (sg_C ex55_prm) v vs.
Proof. exact entries_below. Qed.

(** * the hypotheses are met, and values *)
Example C94_gap_hypotheses_met : sm_rescale (lm_s ex55_m) = false /\ 0 <= sg_C ex55_prm /\ lsg_visits ex55_prm ex55_m 2 (ofN 40) ex55_st ex55_V /\
  length (sg_self (pass_end ex55_st ex55_V)) = 9%nat /\
  Forall (fun v => length v = 9%nat /\ normsq (vsub v (sg_self (pass_end ex55_st ex55_V))) <= ofN 6 * ofN 6 /\
                   Forall (latent_exact ex55_m (lg_task ex14_g) (lg_E ex14_g) 9 v) (map (fun v => fst (fst v)) ex55_V)) (looked_at ex55_st ex55_V) /\
  Forall (fun p => forall z h, t_label (lg_task ex14_g) (fst p) z -> lg_E ex14_g (fst p) (snd p) h ->
            normsq (vsub (t_feat (lg_task ex14_g) (fst p) z) (t_feat (lg_task ex14_g) (fst p) h)) <= ofN 2 * ofN 2) (map (fun v => fst (fst v)) ex55_V).
Proof. split; [reflexivity|]. split; [discriminate|]. split; [exact ex55_visits|]. exact ex55_gap_met. Qed.
(** the curve of that run: entry 4, then 44 from _objective (which charges the wrong loss, C38; the
    latent objective is 54); the weights went to and fro *)
Example C94_computed : match lsg_fit ex55_prm ex55_m ex55_w0 false ex55_S sg_new with
  | Ok (SGLearner t (Some (w, lr, c))) => t = 2%nat /\ qcs_eqb w ex55_w0 = true /\ map this c = [4; 44]%Q
  | _ => False
  end.
Proof. vm_compute. repeat split; reflexivity. Qed.
Example C94_weights_computed : looked_at ex55_st ex55_V = [ex55_w0; ex55_w1].
Proof. unfold ex55_V. cbn [looked_at]. rewrite ex55_w_1. reflexivity. Qed.
(** C94_latent_entries applies to it: one pass, one entry *)
Example C94_entries_applied : exists t w lr o1 o2, lsg_fit ex55_prm ex55_m ex55_w0 false ex55_S sg_new = Ok (SGLearner t (Some (w, lr, [o1; o2]))) /\
  exists st V, lsg_passes ex55_prm ex55_m lr ex55_S st [V] /\ o1 = pass_entry (sg_C ex55_prm) st V.
Proof.
  destruct C94_latent_entries_refuted as [t [w [lr [o1 [o2 [A _]]]]]]. exists t, w, lr, o1, o2. split; [exact A|].
  destruct (C94_latent_entries ex55_prm ex55_m ex55_w0 false ex55_S sg_new t w lr _ eq_refl A) as [st [Ps [Qs [o [P1 [_ [_ [_ [_ [P2 [_ P3]]]]]]]]]]].
  destruct P3 as [[-> P3]|[V [_ [_ [Q _]]]]]; [|discriminate Q]. destruct Ps as [|V [|]]; try discriminate P3. exists st, V. split; [exact P1|]. exact (f_equal (hd 0) P2).
Qed.
(** the parallel mode on the same samples, two cores: one batch, both slacks at the first weights *)
Definition ex57_prm : sg_params := SGParams (ofN 10) 2 0 (Some (ofN 40)) (-1) 2 0 1 None AvgNone false.
Example C94_parallel_computed : match lsg_fit ex57_prm ex55_m ex55_w0 false ex55_S sg_new with
  | Ok (SGLearner t (Some (w, lr, c))) => t = 2%nat /\ map this w = [22; 20; -42; 0; 0; 0; 0; 0; 0]%Q /\ map this c = [524; 1564; 1964]%Q
  | _ => False
  end.
Proof. vm_compute. repeat split; reflexivity. Qed.
(** a batch with a LatentNodeCRF: slacks 0 and 4, entry 37/8; the gap bound is 12 *)
Example C94_parallel_gap_met : sm_rescale (lm_s ex57_m) = false /\ 0 <= sg_C ex57_prm2 /\ par_batches ex57_prm2 ex57_m 2 1 ex57_st ex57_V /\
  length (sg_self (par_end ex57_st ex57_V)) = 12%nat /\
  Forall (fun v => length v = 12%nat /\ normsq (vsub v (sg_self (par_end ex57_st ex57_V))) <= Q2Qc (3 # 2) * Q2Qc (3 # 2) /\
    Forall (latent_exact ex57_m ex57_T (ln_E ex15_g2) 12 v) (concat (map (fun v => fst (fst v)) ex57_V))) (par_looked_at ex57_st ex57_V) /\
  Forall (right_loss ex57_m ex57_T (ln_E ex15_g2)) (concat (map (fun v => fst (fst v)) ex57_V)) /\
  Forall (fun p => forall z h, t_label ex57_T (fst p) z -> ln_E ex15_g2 (fst p) (snd p) h ->
    normsq (vsub (t_feat ex57_T (fst p) z) (t_feat ex57_T (fst p) h)) <= ofN 4 * ofN 4) (concat (map (fun v => fst (fst v)) ex57_V)) /\
  map this (concat (map snd ex57_V)) = [0; 4]%Q /\ this (par_entry (sg_C ex57_prm2) ex57_st ex57_V) = (37 # 8)%Q.
Proof.
  split; [reflexivity|]. split; [discriminate|]. split; [exact ex57_batches|]. split; [reflexivity|]. split; [exact ex57_near|]. split; [exact (proj2 ex57_exact)|].
  split; [exact ex57_spread|]. split; vm_compute; reflexivity.
Qed.
(** the curve of SubgradientSSVM: two samples, two passes; the entries are objectives of the
    averaged weights after each pass, and the last is repeated *)
Example C94_plain_computed :
  match sg_fit (SGParams (Q2Qc (1 # 8)) 2 0 None 1 1 1 1 None AvgLinear false) ex10_bm (fun _ S => S) false [([1], 0%nat); ([1 + 1], 1%nat)] sg_new with
  | Ok (SGLearner t (Some (w, lr, c))) => t = 4%nat /\ map this c = [1 # 4; 6 # 25; 6 # 25]%Q
  | _ => False
  end.
Proof. vm_compute. repeat split; reflexivity. Qed.
Print Assumptions C94_plain_entries.
Print Assumptions C94_latent_entries.
Print Assumptions C94_latent_slack.
Print Assumptions C94_latent_gap.
Print Assumptions C94_latent_entries_refuted.
Print Assumptions C94_parallel_entries.
Print Assumptions C94_parallel_slack.
Print Assumptions C94_parallel_gap.

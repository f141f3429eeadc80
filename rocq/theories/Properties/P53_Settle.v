(** C92: the iterations of LatentSSVM settle. *)
From Verif Require Import Model.LatentSSVM Spec.SettleSpec Proofs.LatentSSVMProofs Proofs.LatentSSVMProofs3 Proofs.Settle Proofs.Settle2 Proofs.Settle3.

(** One iteration: the latent objective falls by a quarter of the squared distance the weights move, up to twice the tolerance of the
    base learner. *)
Theorem C92_step : forall (X Y B : Type) (T : task X Y) E d ydiff (m : lmodel X Y) (bl : base_learner X Y B) Xs Ys C eps k Hi H0 l stop,
  length Xs = length Ys -> 0 <= C -> observed_loss T E (combine Xs Ys) -> completed_exact (lm_s m) T E d (combine Xs Ys) ->
  cccp_fit ydiff m bl Xs Ys k Hi = Ok (H0, l, stop) -> completes E Xs Ys H0 ->
  (forall H b, In (H, b) l -> near_minimal T d C (combine Xs H) (bl_w bl b) eps /\ Forall (latent_exact m T E d (bl_w bl b)) (combine Xs Ys)) ->
  forall H b H' b', successive l (H, b) (H', b') ->
  exists gs gs', latent_hinges T E (bl_w bl b) (combine Xs Ys) gs /\ latent_hinges T E (bl_w bl b') (combine Xs Ys) gs' /\
    primal_value C (bl_w bl b') gs' + normsq (vsub (bl_w bl b') (bl_w bl b)) / ofN 4 <= primal_value C (bl_w bl b) gs + (eps + eps).
Proof.
  intros X Y B T E d ydiff m bl Xs Ys C eps k Hi H0 l stop HL HC HO HE EF HH0 HX H b H' b' SU. destruct (successive_in _ _ _ SU) as [N1 N2].
  destruct (visited_latent T E d m bl Xs Ys C eps HL l HX _ _ N1) as [gs G]. destruct (visited_latent T E d m bl Xs Ys C eps HL l HX _ _ N2) as [gs' G']. exists gs, gs'. split; [exact G|]. split; [exact G'|].
  exact (step_moves T E d ydiff m bl Xs Ys C eps HL HC HO HE k Hi H0 l stop EF HH0 HX H b H' b' gs gs' SU G G').
Qed.
(** Several iterations. *)
Theorem C92_steps : forall (X Y B : Type) (T : task X Y) E d ydiff (m : lmodel X Y) (bl : base_learner X Y B) Xs Ys C eps k Hi H0 l stop,
  length Xs = length Ys -> 0 <= C -> observed_loss T E (combine Xs Ys) -> completed_exact (lm_s m) T E d (combine Xs Ys) ->
  cccp_fit ydiff m bl Xs Ys k Hi = Ok (H0, l, stop) -> completes E Xs Ys H0 ->
  (forall H b, In (H, b) l -> near_minimal T d C (combine Xs H) (bl_w bl b) eps /\ Forall (latent_exact m T E d (bl_w bl b)) (combine Xs Ys)) ->
  forall i n H b H' b' gs gs', nth_error l i = Some (H, b) -> nth_error l (i + n) = Some (H', b') ->
  latent_hinges T E (bl_w bl b) (combine Xs Ys) gs -> latent_hinges T E (bl_w bl b') (combine Xs Ys) gs' ->
  primal_value C (bl_w bl b') gs' + sumn n (fun j => moved (bl_w bl) l (i + j)) / ofN 4 <= primal_value C (bl_w bl b) gs + ofN n * (eps + eps).
Proof. intros X Y B T E d ydiff m bl Xs Ys C eps k Hi H0 l stop HL HC HO HE EF HH0 HX. exact (steps_move T E d ydiff m bl Xs Ys C eps HL HC HO HE k Hi H0 l stop EF HH0 HX). Qed.
(** Hence the weights move little in some of the first n iterations, n being arbitrary: the squared distance is at most
    4 (C * (loss of the worst answers) + eps) / n + 8 eps. *)
Theorem C92_small_step : forall (X Y B : Type) (T : task X Y) E d ydiff (m : lmodel X Y) (bl : base_learner X Y B) Xs Ys C eps k Hi H0 l stop,
  length Xs = length Ys -> 0 <= C -> observed_loss T E (combine Xs Ys) -> completed_exact (lm_s m) T E d (combine Xs Ys) ->
  cccp_fit ydiff m bl Xs Ys k Hi = Ok (H0, l, stop) -> completes E Xs Ys H0 ->
  (forall H b, In (H, b) l -> near_minimal T d C (combine Xs H) (bl_w bl b) eps /\ Forall (latent_exact m T E d (bl_w bl b)) (combine Xs Ys)) ->
  forall n h0, (0 < n < length l)%nat -> hinges T (vzero d) (combine Xs H0) h0 ->
  sumn n (moved (bl_w bl) l) <= ofN 4 * (C * lsum h0 + eps) + ofN n * (ofN 8 * eps) /\
  exists i, (i < n)%nat /\ ofN n * moved (bl_w bl) l i <= ofN 4 * (C * lsum h0 + eps) + ofN n * (ofN 8 * eps).
Proof. intros X Y B T E d ydiff m bl Xs Ys C eps k Hi H0 l stop HL HC HO HE EF HH0 HX. exact (small_step T E d ydiff m bl Xs Ys C eps HL HC HO HE k Hi H0 l stop EF HH0 HX). Qed.
(** A run that ends by itself ends at a local minimum: no weights at which the last completion is still a best one have a latent
    objective lower by more than eps. *)
Theorem C92_local_minimum : forall (X Y B : Type) (T : task X Y) E d ydiff (m : lmodel X Y) (bl : base_learner X Y B) Xs Ys C eps k Hi H0 l,
  length Xs = length Ys -> observed_loss T E (combine Xs Ys) -> completed_exact (lm_s m) T E d (combine Xs Ys) ->
  cccp_fit ydiff m bl Xs Ys k Hi = Ok (H0, l, NoChange) -> completes E Xs Ys H0 ->
  (forall H b, In (H, b) l -> near_minimal T d C (combine Xs H) (bl_w bl b) eps /\ Forall (latent_exact m T E d (bl_w bl b)) (combine Xs Ys)) ->
  (forall p h h', In p (combine Xs Ys) -> E (fst p) (snd p) h -> E (fst p) (snd p) h' -> ydiff h h' = false -> h = h') ->
  exists pre H b gs, l = pre ++ [(H, b)] /\ completed_at m (bl_w bl b) Xs Ys H /\ hinges T (bl_w bl b) (combine Xs H) gs /\ latent_hinges T E (bl_w bl b) (combine Xs Ys) gs /\
    forall v gv, length v = d -> latent_hinges T E v (combine Xs Ys) gv -> Forall2 (fun p h => best_completion T E v (fst p) (snd p) h) (combine Xs Ys) H ->
      primal_value C (bl_w bl b) gs <= primal_value C v gv + eps.
Proof. intros X Y B T E d ydiff m bl Xs Ys C eps k Hi H0 l HL HO HE EF HH0 HX. exact (local_minimum T E d ydiff m bl Xs Ys C eps HL HO HE k Hi H0 l NoChange EF HH0 HX eq_refl). Qed.

(** ** exact base learners *)
(** No completion is trained on twice. *)
Theorem C92_no_repeat : forall (X Y B : Type) (T : task X Y) E d ydiff (m : lmodel X Y) (bl : base_learner X Y B) Xs Ys C k Hi H0 l stop,
  length Xs = length Ys -> 0 <= C -> observed_loss T E (combine Xs Ys) -> completed_exact (lm_s m) T E d (combine Xs Ys) ->
  (forall p h, In p (combine Xs Ys) -> E (fst p) (snd p) h -> ydiff h h = false) ->
  cccp_fit ydiff m bl Xs Ys k Hi = Ok (H0, l, stop) -> completes E Xs Ys H0 ->
  (forall H b, In (H, b) l -> near_minimal T d C (combine Xs H) (bl_w bl b) 0 /\ Forall (latent_exact m T E d (bl_w bl b)) (combine Xs Ys)) ->
  NoDup (map fst l).
Proof. intros X Y B T E d ydiff m bl Xs Ys C k Hi H0 l stop HL HC HO HE HR EF HH0 HX. exact (exact_no_repeat T E d ydiff m bl Xs Ys C HL HC HO HE HR k Hi H0 l stop EF HH0 HX). Qed.
(** So there are at most as many fits as completions, and a larger latent_iter is never used up. *)
Theorem C92_ends : forall (X Y B : Type) (T : task X Y) E d ydiff (m : lmodel X Y) (bl : base_learner X Y B) Xs Ys C k Hi H0 l stop (cs : list (list Y)),
  length Xs = length Ys -> 0 <= C -> observed_loss T E (combine Xs Ys) -> completed_exact (lm_s m) T E d (combine Xs Ys) ->
  (forall p h, In p (combine Xs Ys) -> E (fst p) (snd p) h -> ydiff h h = false) ->
  cccp_fit ydiff m bl Xs Ys k Hi = Ok (H0, l, stop) -> completes E Xs Ys H0 ->
  (forall H b, In (H, b) l -> near_minimal T d C (combine Xs H) (bl_w bl b) 0 /\ Forall (latent_exact m T E d (bl_w bl b)) (combine Xs Ys)) ->
  Forall2 (fun p c => forall h, E (fst p) (snd p) h -> In h c) (combine Xs Ys) cs ->
  (length l <= product (map (@length Y) cs))%nat /\ ((product (map (@length Y) cs) < k)%nat -> stop = NoChange).
Proof. intros X Y B T E d ydiff m bl Xs Ys C k Hi H0 l stop cs HL HC HO HE HR EF HH0 HX. exact (exact_ends T E d ydiff m bl Xs Ys C HL HC HO HE HR k Hi H0 l stop EF HH0 HX cs). Qed.
(** LatentGraphCRF with any exact base learner: the number of fits is at most the product, over all nodes of all samples, of the number
    of latent states of the node's label. *)
Theorem C92_latent_graph : forall nl nf pl g solve cluster (B : Type) (bl : base_learner graph_x (list nat) B) Xs Ys C k Hi H0 l stop,
  lg_setup nl nf pl = Ok g -> Forall (fun c => (0 < c)%nat) (lg_counts g) -> lg_samples nl nf solve (combine Xs Ys) ->
  length Xs = length Ys -> 0 <= C ->
  (match Hi with Some H => completes (lg_E g) Xs Ys H | None => clusters cluster end) ->
  cccp_fit labels_differ (lg_lmodel solve cluster g) bl Xs Ys k Hi = Ok (H0, l, stop) ->
  (forall H b, In (H, b) l -> near_minimal (lg_task g) (g_size (lg_graph g)) C (combine Xs H) (bl_w bl b) 0 /\
     forall p, In p (combine Xs Ys) -> exact_latent (lg_lmodel solve cluster g) (lg_task g) (lg_E g) (bl_w bl b) (fst p) (snd p)) ->
  NoDup (map fst l) /\
  (length l <= product (map (fun y => product (map (fun s => nth s (lg_counts g) 0%nat) y)) Ys))%nat /\
  ((product (map (fun y => product (map (fun s => nth s (lg_counts g) 0%nat) y)) Ys) < k)%nat -> stop = NoChange).
Proof. intros nl nf pl g solve cluster B bl Xs Ys C k Hi H0 l stop. exact (graph_settles nl nf pl g solve cluster bl Xs Ys C k Hi H0 l stop). Qed.
(** With a tolerance, however small, this fails: a base learner within eps of the optimum and a sample with two completions for which
    LatentSSVM uses up any latent_iter. *)
Theorem C92_ends_refuted : forall eps k, 0 < eps -> exists (bl : base_learner unit nat (list Qc)) l,
  cccp_fit ex53_ydiff ex53_m2 bl [tt] [0%nat] k (Some [0%nat]) = Ok ([0%nat], l, LatentIter) /\ length l = k /\
  forall H b, In (H, b) l -> near_minimal ex53_T2 1 1 (combine [tt] H) (bl_w bl b) eps /\ Forall (latent_exact ex53_m2 ex53_T2 ex53_E 1 (bl_w bl b)) (combine [tt] [0%nat]).
Proof. exact tol_never_ends. Qed.

(** ** OneSlackSSVM as base learner *)
Theorem C92_oneslack : forall (X Y : Type) (T : task X Y) E d ceq solve prm (m : lmodel X Y) bm ydiff Xs Ys k Hi H0 l stop,
  (0 < length Xs)%nat -> 0 <= o_C prm -> 0 <= o_tol prm -> length Xs = length Ys -> qp_exact solve -> o_neg prm = None ->
  (forall H, completes E Xs Ys H -> batch_exact bm T d Xs H) -> o_cache prm = O \/ sm_rescale (bm_s bm) = false ->
  observed_loss T E (combine Xs Ys) -> completed_exact (lm_s m) T E d (combine Xs Ys) -> completes_all m E d (combine Xs Ys) ->
  cccp_fit ydiff m (oneslack_base ceq solve prm bm) Xs Ys k Hi = Ok (H0, l, stop) -> completes E Xs Ys H0 ->
  (forall H st why, In (H, (st, why)) l -> why = OSNoConstraint /\ In (vzero d, 0) (o_cons st) /\ Forall (latent_exact m T E d (o_w st)) (combine Xs Ys)) ->
  (forall H b H' b', successive l (H, b) (H', b') ->
     exists gs gs', latent_hinges T E (o_w (fst b)) (combine Xs Ys) gs /\ latent_hinges T E (o_w (fst b')) (combine Xs Ys) gs' /\
       primal_value (o_C prm) (o_w (fst b')) gs' + normsq (vsub (o_w (fst b')) (o_w (fst b))) / ofN 4 <=
         primal_value (o_C prm) (o_w (fst b)) gs + (os_eps prm (length Xs) + os_eps prm (length Xs))) /\
  forall n h0, (0 < n < length l)%nat -> hinges T (vzero d) (combine Xs H0) h0 ->
    exists i, (i < n)%nat /\ ofN n * moved (fun b : os_state Y * os_stop => o_w (fst b)) l i <= ofN 4 * (o_C prm * lsum h0 + os_eps prm (length Xs)) + ofN n * (ofN 8 * os_eps prm (length Xs)).
Proof.
  intros X Y T E d ceq solve prm m bm ydiff Xs Ys k Hi H0 l stop HN0 HC HT HL HS HN HB HR HO HE HA EF HH0 HX.
  assert (G : forall H b, In (H, b) l -> near_minimal T d (o_C prm) (combine Xs H) (bl_w (oneslack_base ceq solve prm bm) b) (os_eps prm (length Xs)) /\ Forall (latent_exact m T E d (bl_w (oneslack_base ceq solve prm bm) b)) (combine Xs Ys)).
  { intros H [st why] Q. destruct (HX H st why Q) as [A1 [A2 A3]]. split; [|exact A3]. exact (oneslack_near T E d ceq solve prm m bm ydiff Xs Ys k Hi H0 l stop HN0 HC HT HL HS HN HB HR HO HA EF HH0 H st why Q A1 A2). }
  split.
  - exact (C92_step X Y _ T E d ydiff m (oneslack_base ceq solve prm bm) Xs Ys (o_C prm) _ k Hi H0 l stop HL HC HO HE EF HH0 G).
  - intros n h0 Hn Hh0. exact (proj2 (C92_small_step X Y _ T E d ydiff m (oneslack_base ceq solve prm bm) Xs Ys (o_C prm) _ k Hi H0 l stop HL HC HO HE EF HH0 G n h0 Hn Hh0)).
Qed.

(** ** the hypotheses are met: one sample, completions 0 and 1, a wrong answer 2; C = 1/4.  Trained on completion 0 the best weight is
    1/4, which prefers completion 1, for which it is 1/2. *)
Example C92_hypotheses_met :
  observed_loss ex53_T ex53_E (combine [tt] [0%nat]) /\ completed_exact (lm_s ex53_m) ex53_T ex53_E 1 (combine [tt] [0%nat]) /\ completes ex53_E [tt] [0%nat] [0%nat] /\
  (forall k, (2 < k)%nat -> cccp_fit ex53_ydiff ex53_m ex53_bl [tt] [0%nat] k (Some [0%nat]) = Ok ([0%nat], [([0%nat], [quarter]); ([1%nat], [/ (1 + 1)])], NoChange)) /\
  (forall H b, In (H, b) [([0%nat], [quarter]); ([1%nat], [/ (1 + 1)])] ->
     near_minimal ex53_T 1 quarter (combine [tt] H) b 0 /\ Forall (latent_exact ex53_m ex53_T ex53_E 1 b) (combine [tt] [0%nat])) /\
  (forall p h, In p (combine [tt] [0%nat]) -> ex53_E (fst p) (snd p) h -> ex53_ydiff h h = false).
Proof.
  split; [exact ex53_observed|]. split; [exact ex53_exact|]. split; [constructor; [unfold ex53_E; lia|constructor]|]. split; [exact ex53_run|]. split; [exact ex53_near|].
  intros p h _ _. unfold ex53_ydiff. rewrite Nat.eqb_refl. reflexivity.
Qed.
(** the two fits are as many as there are completions *)
Example C92_ends_applied : forall k H0 l stop, (2 < k)%nat -> cccp_fit ex53_ydiff ex53_m ex53_bl [tt] [0%nat] k (Some [0%nat]) = Ok (H0, l, stop) ->
  (length l <= product [2])%nat /\ stop = NoChange.
Proof.
  intros k H0 l stop Hk EF. destruct C92_hypotheses_met as [A1 [A2 [A3 [A4 [A5 A6]]]]]. assert (EF' := EF). rewrite (A4 k Hk) in EF. injection EF as <- <- <-.
  destruct (C92_ends unit nat (list Qc) ex53_T ex53_E 1 ex53_ydiff ex53_m ex53_bl [tt] [0%nat] quarter k (Some [0%nat]) _ _ _ [[0; 1]%nat] eq_refl ltac:(vm_compute; discriminate) A1 A2 A6 EF' A3 A5) as [B1 B2].
  - constructor; [|constructor]. intros h Hh. cbn [fst snd] in Hh. unfold ex53_E in Hh. destruct h as [|[|h]]; [left; reflexivity|right; left; reflexivity|lia].
  - split; [exact B1|]. apply B2. cbn. lia.
Qed.
(** the hypotheses shared by the refutation: model and task agree, inference is exact *)
Example C92_refutation_model : observed_loss ex53_T2 ex53_E (combine [tt] [0%nat]) /\ completed_exact (lm_s ex53_m2) ex53_T2 ex53_E 1 (combine [tt] [0%nat]).
Proof. split; [exact tol_observed|exact tol_exact]. Qed.
Print Assumptions C92_step.
Print Assumptions C92_steps.
Print Assumptions C92_small_step.
Print Assumptions C92_local_minimum.
Print Assumptions C92_no_repeat.
Print Assumptions C92_ends.
Print Assumptions C92_latent_graph.
Print Assumptions C92_ends_refuted.
Print Assumptions C92_oneslack.

(** Properties of LatentSSVM (learners/latent_structured_svm.py): C40, C41. *)
From Coq Require Import ZArith.
From Verif Require Import Model.LatentSSVM Model.ChainCRF Proofs.Arrays Proofs.LatentProofs Proofs.LatentProofs3 Proofs.LatentProofs4 Proofs.LatentProofs5
  Proofs.LatentSSVMProofs Proofs.LatentSSVMProofs2 Proofs.LatentSSVMProofs3 Proofs.ScoreProofs2 Proofs.LatentSSVMExamples Spec.LatentSSVMSpec.

(** * C40: the concave-convex procedure *)
(** ** what fit does, for any model and base learner *)
Theorem C40_trace : forall (X Y B : Type) ydiff (m : lmodel X Y) (bl : base_learner X Y B) Xs Ys k Hi H0 l stop,
  cccp_fit ydiff m bl Xs Ys k Hi = Ok (H0, l, stop) ->
  (match Hi with Some H => H0 = H | None => lm_init m (combine Xs Ys) = Ok H0 end) /\
  (length l <= k)%nat /\ (stop = LatentIter -> length l = k) /\ (l = [] <-> k = O) /\
  (forall q l', l = q :: l' -> fst q = H0 /\ bl_fit bl Xs H0 = Ok (snd q)) /\
  (forall q q', successive l q q' -> iterates ydiff m bl Xs Ys q q') /\
  (stop = NoChange -> (length l < k)%nat /\
     exists pre H b Hn, l = pre ++ [(H, b)] /\ completed_at m (bl_w bl b) Xs Ys Hn /\ differ ydiff Hn H = false).
Proof. intros X Y B ydiff m bl Xs Ys. exact (fit_trace ydiff m bl Xs Ys). Qed.
Theorem C40_labels_differ : forall a b, length a = length b -> labels_differ a b = false <-> a = b.
Proof. exact differ_same. Qed.
(** ** descent: if the learner does not make the completed objective worse than at the weights it
    starts from, up to [eps], then neither is the latent objective *)
Theorem C40_descent : forall (X Y B : Type) (T : task X Y) E d ydiff (m : lmodel X Y) (bl : base_learner X Y B) Xs Ys C eps k Hi H0 l stop,
  length Xs = length Ys -> 0 <= C -> observed_loss T E (combine Xs Ys) ->
  cccp_fit ydiff m bl Xs Ys k Hi = Ok (H0, l, stop) ->
  (forall H b, In (H, b) l -> length (bl_w bl b) = d /\ Forall (latent_exact m T E d (bl_w bl b)) (combine Xs Ys)) ->
  (forall H b H' b', successive l (H, b) (H', b') -> forall hs hs', hinges T (bl_w bl b) (combine Xs H') hs -> hinges T (bl_w bl b') (combine Xs H') hs' ->
     primal_value C (bl_w bl b') hs' <= primal_value C (bl_w bl b) hs + eps) ->
  forall H b H' b', successive l (H, b) (H', b') -> latent_descends T E C eps (combine Xs Ys) (bl_w bl b) (bl_w bl b').
Proof. intros X Y B T E d ydiff m bl Xs Ys C eps k Hi H0 l stop HL HC HO. exact (run_descends T E d ydiff m bl Xs Ys C eps HL HC HO k Hi H0 l stop). Qed.
Theorem C40_descent_total : forall (X Y B : Type) (T : task X Y) E (bl : base_learner X Y B) Xs Ys C eps (l : list (list Y * B)),
  length Xs = length Ys -> observed_loss T E (combine Xs Ys) ->
  (forall H b H' b', successive l (H, b) (H', b') -> latent_descends T E C eps (combine Xs Ys) (bl_w bl b) (bl_w bl b')) ->
  forall n H b H' b' gs gs', nth_error l 0 = Some (H, b) -> nth_error l n = Some (H', b') ->
  latent_hinges T E (bl_w bl b) (combine Xs Ys) gs -> latent_hinges T E (bl_w bl b') (combine Xs Ys) gs' ->
  primal_value C (bl_w bl b') gs' <= primal_value C (bl_w bl b) gs + ofN n * eps.
Proof. intros X Y B T E bl Xs Ys C eps l HL HO. exact (chain_descends T E bl Xs Ys C eps HL HO l). Qed.
(** Stopping because no latent output changed: the last completion is the best one at the last
    weights, so that completed and latent hinge losses agree there. *)
Theorem C40_fixed_point : forall (X Y B : Type) (T : task X Y) E d ydiff (m : lmodel X Y) (bl : base_learner X Y B) Xs Ys k Hi H0 l,
  length Xs = length Ys -> cccp_fit ydiff m bl Xs Ys k Hi = Ok (H0, l, NoChange) ->
  (forall H b, In (H, b) l -> length (bl_w bl b) = d /\ Forall (latent_exact m T E d (bl_w bl b)) (combine Xs Ys) /\ completes E Xs Ys H) ->
  (forall p h h', In p (combine Xs Ys) -> E (fst p) (snd p) h -> E (fst p) (snd p) h' -> ydiff h h' = false -> h = h') ->
  exists pre H b gs, l = pre ++ [(H, b)] /\ completed_at m (bl_w bl b) Xs Ys H /\
    hinges T (bl_w bl b) (combine Xs H) gs /\ latent_hinges T E (bl_w bl b) (combine Xs Ys) gs.
Proof. intros X Y B T E d ydiff m bl Xs Ys k Hi H0 l HL. exact (fixed_point T E d ydiff m bl Xs Ys HL k Hi H0 l). Qed.

(** ** n-slack base learner *)
(** Re-deriving the constraints for a new completion succeeds; the result is a valid working set
    for it, with the labellings of the old one in order. *)
Theorem C40_constraints_adjusted : forall (X Y : Type) (T : task X Y) d (s : smodel X Y) w Xs H H' cs, length w = d ->
  length Xs = length H -> length Xs = length H' -> oracle_ok s T d (combine Xs H') ->
  Forall2 (fun p c => Forall (valid_con T p) c) (combine Xs H) cs ->
  exists cs', adjust_constraints s w Xs H' cs = Ok cs' /\ Forall2 (fun p c => Forall (valid_con T p) c) (combine Xs H') cs' /\
    map (map (fun c => fst (fst c))) cs' = map (map (fun c => fst (fst c))) cs.
Proof. intros X Y T d s w Xs H H' cs Hw. exact (adjust_ok T d s w Hw Xs H H' cs). Qed.
(** Every fit whose loop ended because no constraint was added leaves weights whose latent
    objective is at most the completed objective of any other weights, up to ns_eps. *)
Theorem C40_nslack_guarantee : forall (X Y : Type) (T : task X Y) E d yeq solve prm (m : lmodel X Y) ydiff Xs Ys k Hi H0 l stop,
  0 <= ns_C prm -> length Xs = length Ys -> qp_exact solve -> ns_neg prm = None -> sm_size (lm_s m) = d ->
  completed_exact (lm_s m) T E d (combine Xs Ys) -> completed_yeq T E yeq (combine Xs Ys) -> observed_loss T E (combine Xs Ys) ->
  free_completes T E (combine Xs Ys) -> completes_all m E d (combine Xs Ys) ->
  cccp_fit ydiff m (nslack_base yeq solve prm (lm_s m)) Xs Ys k Hi = Ok (H0, l, stop) -> completes E Xs Ys H0 ->
  forall H st curve primal why, In (H, (st, curve, primal, why)) l ->
  completes E Xs Ys H /\ length (st_w st) = d /\ Forall2 (fun p c => Forall (valid_con T p) c) (combine Xs H) (st_cons st) /\
  (why = NoNewConstraint -> latent_below T E d (ns_C prm) (ns_eps prm (length Xs)) Xs Ys H (st_w st)).
Proof.
  intros X Y T E d yeq solve prm m ydiff Xs Ys k Hi H0 l stop HC HL HS HN Hd HE HY HO HZ HA EF HI H st curve primal why Q.
  exact (nslack_trace T E d yeq solve prm HC m Xs Ys ydiff HL HS HN Hd HE HY HO HZ HA k Hi H0 l stop EF HI H _ Q).
Qed.
(** ... hence the latent objective never grows by more than ns_eps. *)
Theorem C40_nslack_descent : forall (X Y : Type) (T : task X Y) E d yeq solve prm (m : lmodel X Y) ydiff Xs Ys k Hi H0 l stop,
  0 <= ns_C prm -> length Xs = length Ys -> qp_exact solve -> ns_neg prm = None -> sm_size (lm_s m) = d ->
  completed_exact (lm_s m) T E d (combine Xs Ys) -> completed_yeq T E yeq (combine Xs Ys) -> observed_loss T E (combine Xs Ys) ->
  free_completes T E (combine Xs Ys) -> completes_all m E d (combine Xs Ys) ->
  cccp_fit ydiff m (nslack_base yeq solve prm (lm_s m)) Xs Ys k Hi = Ok (H0, l, stop) -> completes E Xs Ys H0 ->
  (forall H st curve primal why, In (H, (st, curve, primal, why)) l -> why = NoNewConstraint /\ Forall (latent_exact m T E d (st_w st)) (combine Xs Ys)) ->
  forall H b H' b', successive l (H, b) (H', b') ->
  latent_descends T E (ns_C prm) (ns_eps prm (length Xs)) (combine Xs Ys) (st_w (fst (fst (fst b)))) (st_w (fst (fst (fst b')))).
Proof.
  intros X Y T E d yeq solve prm m ydiff Xs Ys k Hi H0 l stop HC HL HS HN Hd HE HY HO HZ HA EF HI HX.
  refine (below_descends T E d ydiff m (nslack_base yeq solve prm (lm_s m)) Xs Ys (ns_C prm) _ HL k Hi H0 l stop EF _).
  intros H [[[st cu] pr] why] Q. destruct (HX _ _ _ _ _ Q) as [-> HX2].
  destruct (nslack_trace T E d yeq solve prm HC m Xs Ys ydiff HL HS HN Hd HE HY HO HZ HA k Hi H0 l stop EF HI H _ Q) as [A1 [A2 [A3 A4]]].
  split; [exact A2|]. split; [exact HX2|exact (A4 eq_refl)].
Qed.
(** ** one-slack base learner; [constraints] is ignored by its fit, the inference cache is kept
    and stays valid for the new completion *)
Theorem C40_oneslack_guarantee : forall (X Y : Type) (T : task X Y) E d ceq solve prm (m : lmodel X Y) bm ydiff Xs Ys k Hi H0 l stop,
  (0 < length Xs)%nat -> 0 <= o_C prm -> 0 <= o_tol prm -> length Xs = length Ys -> qp_exact solve -> o_neg prm = None ->
  (forall H, completes E Xs Ys H -> batch_exact bm T d Xs H) -> o_cache prm = O \/ sm_rescale (bm_s bm) = false ->
  observed_loss T E (combine Xs Ys) -> completes_all m E d (combine Xs Ys) ->
  cccp_fit ydiff m (oneslack_base ceq solve prm bm) Xs Ys k Hi = Ok (H0, l, stop) -> completes E Xs Ys H0 ->
  forall H st why, In (H, (st, why)) l ->
  completes E Xs Ys H /\ length (o_w st) = d /\
  (match o_icache st with None => True | Some c => Forall2 (fun p s => Forall (valid_entry T p) s) (combine Xs H) c end) /\
  (why = OSNoConstraint -> In (vzero d, 0) (o_cons st) -> latent_below T E d (o_C prm) (os_eps prm (length Xs)) Xs Ys H (o_w st)).
Proof.
  intros X Y T E d ceq solve prm m bm ydiff Xs Ys k Hi H0 l stop HN0 HC HT HL HS HN HB HR HO HA EF HI H st why Q.
  exact (oneslack_trace T E d ceq solve prm m bm Xs Ys ydiff HN0 HC HT HL HS HN (conj HB HR) HO HA k Hi H0 l stop EF HI H _ Q).
Qed.
Theorem C40_oneslack_descent : forall (X Y : Type) (T : task X Y) E d ceq solve prm (m : lmodel X Y) bm ydiff Xs Ys k Hi H0 l stop,
  (0 < length Xs)%nat -> 0 <= o_C prm -> 0 <= o_tol prm -> length Xs = length Ys -> qp_exact solve -> o_neg prm = None ->
  (forall H, completes E Xs Ys H -> batch_exact bm T d Xs H) -> o_cache prm = O \/ sm_rescale (bm_s bm) = false ->
  observed_loss T E (combine Xs Ys) -> completes_all m E d (combine Xs Ys) ->
  cccp_fit ydiff m (oneslack_base ceq solve prm bm) Xs Ys k Hi = Ok (H0, l, stop) -> completes E Xs Ys H0 ->
  (forall H st why, In (H, (st, why)) l -> why = OSNoConstraint /\ In (vzero d, 0) (o_cons st) /\ Forall (latent_exact m T E d (o_w st)) (combine Xs Ys)) ->
  forall H b H' b', successive l (H, b) (H', b') ->
  latent_descends T E (o_C prm) (os_eps prm (length Xs)) (combine Xs Ys) (o_w (fst b)) (o_w (fst b')).
Proof.
  intros X Y T E d ceq solve prm m bm ydiff Xs Ys k Hi H0 l stop HN0 HC HT HL HS HN HB HR HO HA EF HI HX.
  refine (below_descends T E d ydiff m (oneslack_base ceq solve prm bm) Xs Ys (o_C prm) _ HL k Hi H0 l stop EF _).
  intros H [st why] Q. destruct (HX _ _ _ Q) as [-> [HX2 HX3]].
  destruct (oneslack_trace T E d ceq solve prm m bm Xs Ys ydiff HN0 HC HT HL HS HN (conj HB HR) HO HA k Hi H0 l stop EF HI H _ Q) as [A1 [A2 [A3 A4]]].
  split; [exact A2|]. split; [exact HX3|exact (A4 eq_refl HX2)].
Qed.

(** ** LatentGraphCRF with the n-slack learner, from the first completion to the last weights *)
Theorem C40_latent_graph : forall nl nf pl g solve cluster qp prm yeq Xs Ys k Hi H0 l stop,
  lg_setup nl nf pl = Ok g -> Forall (fun c => (0 < c)%nat) (lg_counts g) -> lg_samples nl nf solve (combine Xs Ys) ->
  length Xs = length Ys -> qp_exact qp -> 0 <= ns_C prm -> ns_neg prm = None -> (forall a b, length a = length b -> yeq a b = true -> a = b) ->
  (match Hi with Some H => completes (lg_E g) Xs Ys H | None => clusters cluster end) ->
  cccp_fit labels_differ (lg_lmodel solve cluster g) (nslack_base yeq qp prm (lg_smodel solve g)) Xs Ys k Hi = Ok (H0, l, stop) ->
  (forall H st curve primal why, In (H, (st, curve, primal, why)) l -> why = NoNewConstraint /\
     forall p, In p (combine Xs Ys) -> exact_latent (lg_lmodel solve cluster g) (lg_task g) (lg_E g) (st_w st) (fst p) (snd p)) ->
  (forall H b H' b', successive l (H, b) (H', b') ->
     latent_descends (lg_task g) (lg_E g) (ns_C prm) (ns_eps prm (length Xs)) (combine Xs Ys) (st_w (fst (fst (fst b)))) (st_w (fst (fst (fst b'))))) /\
  (stop = NoChange -> exists pre H b gs, l = pre ++ [(H, b)] /\ completes (lg_E g) Xs Ys H /\
     completed_at (lg_lmodel solve cluster g) (st_w (fst (fst (fst b)))) Xs Ys H /\
     hinges (lg_task g) (st_w (fst (fst (fst b)))) (combine Xs H) gs /\ latent_hinges (lg_task g) (lg_E g) (st_w (fst (fst (fst b)))) (combine Xs Ys) gs /\
     forall v hs, length v = g_size (lg_graph g) -> hinges (lg_task g) v (combine Xs H) hs ->
       primal_value (ns_C prm) (st_w (fst (fst (fst b)))) gs <= primal_value (ns_C prm) v hs + ns_eps prm (length Xs)).
Proof.
  intros nl nf pl g solve cluster qp prm yeq Xs Ys k Hi H0 l stop EG HK HS HL HQ HC HN HE HI EF HX.
  set (m := lg_lmodel solve cluster g) in *. set (E := lg_E g). set (T := lg_task g). set (d := g_size (lg_graph g)).
  assert (I0 : completes E Xs Ys H0).
  { destruct (C40_trace _ _ _ _ _ _ _ _ _ _ _ _ _ EF) as [A _]. destruct Hi as [H|]; [rewrite A; exact HI|].
    assert (F := init_explains cluster nl nf pl g _ _ HI EG A). clear - F. unfold completes, E, lg_E. induction F as [|s h S H [F1 _] F IH]; constructor; auto. }
  assert (G : forall H b, In (H, b) l -> length (st_w (fst (fst (fst b)))) = d /\ completes E Xs Ys H /\ Forall (latent_exact m T E d (st_w (fst (fst (fst b))))) (combine Xs Ys) /\
    latent_below T E d (ns_C prm) (ns_eps prm (length Xs)) Xs Ys H (st_w (fst (fst (fst b))))).
  { intros H [[[st cu] pr] why] Q. destruct (HX _ _ _ _ _ Q) as [-> HX2].
    destruct (C40_nslack_guarantee _ _ T E d yeq qp prm m labels_differ Xs Ys k Hi H0 l stop HC HL HQ HN eq_refl
      (graph_completed_exact nl nf pl g solve EG HK _ HS) (graph_yeq g _ yeq HE) (graph_observed nl nf pl g solve cluster EG HK _ HS)
      (graph_free nl nf pl g solve EG HK _ HS) (graph_completes nl nf pl g solve cluster EG HK _ HS) EF I0 H _ _ _ _ Q) as [A1 [A2 [_ A4]]].
    cbn [fst]. split; [exact A2|]. split; [exact A1|]. split; [|exact (A4 eq_refl)].
    exact (graph_latent_exact nl nf pl g solve cluster EG HK _ HS (st_w st) A2 HX2). }
  split.
  - refine (below_descends T E d labels_differ m (nslack_base yeq qp prm (lg_smodel solve g)) Xs Ys (ns_C prm) _ HL k Hi H0 l stop EF _).
    intros H b Q. destruct (G H b Q) as [A1 [_ [A2 A3]]]. auto.
  - intros ->. destruct (fixed_point T E d labels_differ m (nslack_base yeq qp prm (lg_smodel solve g)) Xs Ys HL k Hi H0 l EF) as [pre [H [b [gs [A1 [A2 [A3 A4]]]]]]].
    + intros H b Q. destruct (G H b Q) as [B1 [B2 [B3 _]]]. auto.
    + intros p h h'. exact (graph_ydiff g _ p h h').
    + assert (Q : In (H, b) l) by (rewrite A1; apply in_or_app; right; left; reflexivity). destruct (G H b Q) as [B1 [B2 [B3 B4]]].
      exists pre, H, b, gs. split; [exact A1|]. split; [exact B2|]. split; [exact A2|]. split; [exact A3|]. split; [exact A4|].
      intros v hs Hv Hh. exact (B4 gs v hs A4 Hv Hh).
Qed.

(** ** other base learners *)
(** StructuredPerceptron.fit has no argument constraints, FrankWolfeSSVM.fit no argument warm_start. *)
Theorem C40_perceptron_base_fails : forall (X Y B : Type) ydiff (m : lmodel X Y) (w : B -> list Qc) Xs Ys k Hi H,
  (match Hi with Some H => Ok H | None => lm_init m (combine Xs Ys) end) = Ok H ->
  cccp_fit ydiff m (perceptron_base w) Xs Ys (S k) Hi = Err TypeError.
Proof. intros X Y B ydiff m w Xs Ys k Hi H. exact (perceptron_fails ydiff m w Xs Ys k Hi H). Qed.
Theorem C40_frankwolfe_base : forall (X Y B : Type) ydiff (m : lmodel X Y) first (w : B -> list Qc) Xs Ys k Hi H b Hn,
  (match Hi with Some H => Ok H | None => lm_init m (combine Xs Ys) end) = Ok H -> first Xs H = Ok b -> completed_at m (w b) Xs Ys Hn ->
  cccp_fit ydiff m (frankwolfe_base first w) Xs Ys (S (S k)) Hi = if differ ydiff Hn H then Err TypeError else Ok (H, [(H, b)], NoChange).
Proof.
  intros X Y B ydiff m first w Xs Ys k Hi H b Hn EI EF EC. destruct (differ ydiff Hn H) eqn:D; [exact (frankwolfe_fails ydiff m first w Xs Ys k Hi H b Hn EI EF EC D)|].
  unfold cccp_fit. rewrite EI. cbn [bind frankwolfe_base bl_fit]. rewrite EF. cbn [bind cccp_loop bl_w]. apply (completed_mapM m) in EC. cbn [frankwolfe_base bl_w]. rewrite EC. cbn [bind].
  unfold differ in D. rewrite D. reflexivity.
Qed.
(** An error in completing a sample is passed on. *)
Theorem C40_completion_error : forall (X Y B : Type) ydiff (m : lmodel X Y) (bl : base_learner X Y B) Xs Ys k Hi H b e,
  (match Hi with Some H => Ok H | None => lm_init m (combine Xs Ys) end) = Ok H -> bl_fit bl Xs H = Ok b ->
  mapM (fun p => lm_latent m (fst p) (snd p) (bl_w bl b)) (combine Xs Ys) = Err e -> cccp_fit ydiff m bl Xs Ys (S (S k)) Hi = Err e.
Proof. intros X Y B ydiff m bl Xs Ys k Hi H b e. exact (completion_error ydiff m bl Xs Ys k Hi H b e). Qed.

(** ** prediction *)
Theorem C40_predict : forall nl nf pl g solve cluster w Xs (Ys : list (list nat)), lg_setup nl nf pl = Ok g ->
  Forall2 (fun x y => exists h, g_inference solve (lg_graph g) x w = Ok h /\ labelling (length y) (lg_states g) h) Xs Ys ->
  exists H, cccp_predict_latent (lg_lmodel solve cluster g) w Xs = Ok H /\
    cccp_predict (lg_lmodel solve cluster g) w Xs = Ok (map (map (owner (lg_counts g))) H) /\ Forall2 (fun y h => labelling (length y) (lg_states g) h) Ys H.
Proof. intros nl nf pl g solve cluster w Xs Ys EG. exact (predict_value nl nf pl g solve cluster EG w Xs Ys). Qed.
Theorem C40_score : forall nl nf pl g solve cluster w Xs (Ys : list (list nat)), lg_setup nl nf pl = Ok g ->
  Forall2 (fun x y => exists h, g_inference solve (lg_graph g) x w = Ok h /\ labelling (length y) (lg_states g) h) Xs Ys ->
  Forall (Forall (fun l => (l < nl)%nat)) Ys -> (0 < list_sum (map (@length nat) Ys))%nat ->
  exists P s, cccp_predict (lg_lmodel solve cluster g) w Xs = Ok P /\ cccp_score (lg_lmodel solve cluster g) w Xs Ys = Ok s /\
    0 <= s /\ s <= 1 /\ (s = 1 <-> P = Ys).
Proof. intros nl nf pl g solve cluster w Xs Ys EG. exact (score_value nl nf pl g solve cluster EG w Xs Ys). Qed.

(** The score is 0/0 if the largest losses sum to 0. *)
Theorem C40_score_nothing : forall (X Y : Type) (m : lmodel X Y) w Xs Ys P losses mls, cccp_predict m w Xs = Ok P ->
  mapM (fun q => lm_base_loss m (fst q) (snd q)) (combine Ys P) = Ok losses -> mapM (lm_max_loss m) Ys = Ok mls ->
  (lsum mls = 0 -> cccp_score m w Xs Ys = Err NonFinite) /\ (lsum mls <> 0 -> cccp_score m w Xs Ys = Ok (1 - lsum losses / lsum mls)).
Proof. intros X Y. exact cccp_score_value. Qed.

(** * C41: forwarded parameters *)
Theorem C41_model : forall M (v : M) a, get_model (set_model v a) = v /\ ba_w (set_model v a) = ba_w a /\ ba_C (set_model v a) = ba_C a /\
  ba_n_jobs (set_model v a) = ba_n_jobs a /\ ba_verbose (set_model v a) = ba_verbose a.
Proof. intros M v a. repeat split; reflexivity. Qed.
Theorem C41_w : forall M v (a : base_attrs M), get_w (set_w v a) = Ok v /\ ba_model (set_w v a) = ba_model a /\ ba_C (set_w v a) = ba_C a /\
  ba_n_jobs (set_w v a) = ba_n_jobs a /\ ba_verbose (set_w v a) = ba_verbose a.
Proof. intros M v a. repeat split; reflexivity. Qed.
Theorem C41_w_unfitted : forall M (a : base_attrs M), ba_w a = None -> get_w a = Err AttributeError.
Proof. intros M a E. unfold get_w. rewrite E. reflexivity. Qed.
Theorem C41_n_jobs : forall M v (a : base_attrs M), get_n_jobs (set_n_jobs v a) = v /\ ba_model (set_n_jobs v a) = ba_model a /\ ba_w (set_n_jobs v a) = ba_w a /\
  ba_C (set_n_jobs v a) = ba_C a /\ ba_verbose (set_n_jobs v a) = ba_verbose a.
Proof. intros M v a. repeat split; reflexivity. Qed.
Theorem C41_verbose : forall M v (a : base_attrs M), get_verbose (set_verbose v a) = v /\ ba_model (set_verbose v a) = ba_model a /\
  ba_w (set_verbose v a) = ba_w a /\ ba_C (set_verbose v a) = ba_C a /\ ba_n_jobs (set_verbose v a) = ba_n_jobs a.
Proof. intros M v a. repeat split; reflexivity. Qed.
(** Assigning C leaves C unchanged, whatever the value, and replaces the weights by that number. *)
Theorem C41_C_refuted : forall M (a : base_attrs M) c, get_C (set_C c a) = get_C a /\ get_w (set_C c a) = Ok (WNumber c) /\
  ba_model (set_C c a) = ba_model a /\ ba_n_jobs (set_C c a) = ba_n_jobs a /\ ba_verbose (set_C c a) = ba_verbose a.
Proof. intros M a c. repeat split; reflexivity. Qed.

(** * cases meeting the hypotheses *)
(** A graph of two nodes, two states for label 0 and one for label 1, C = 1/100: the first
    completion [0; 1] is replaced by [1; 1], and then kept. *)
Example C40_computed : exists b1 b2, ex16_run = Ok (ex16_init, [(ex16_init, b1); ([[1; 1]%nat], b2)], NoChange) /\
  bl_w ex16_base b1 = map Q2Qc [1#100; 3#100; -1#25; 0; 1#100; 0; 0; 0; -1#100]%Q /\
  bl_w ex16_base b2 = map Q2Qc [0; 1#25; -1#25; 0; 0; 1#100; 0; 0; -1#100]%Q /\ snd b1 = NoNewConstraint /\ snd b2 = NoNewConstraint.
Proof. exact ex16_trace. Qed.
Example C40_hypotheses_met : lg_setup 2 1 (StatesList [2; 1]%nat) = Ok ex14_g /\ Forall (fun c => (0 < c)%nat) (lg_counts ex14_g) /\
  lg_samples 2 1 max_product_solver (combine ex16_Xs ex16_Ys) /\ qp_exact ex16_solver /\ 0 <= ns_C ex16_prm /\ ns_neg ex16_prm = None /\
  (forall a b, length a = length b -> nats_eqb a b = true -> a = b) /\ completes (lg_E ex14_g) ex16_Xs ex16_Ys ex16_init /\
  exists l, ex16_run = Ok (ex16_init, l, NoChange) /\ length l = 2%nat /\
  (forall H st curve primal why, In (H, (st, curve, primal, why)) l -> why = NoNewConstraint /\
     forall p, In p (combine ex16_Xs ex16_Ys) -> exact_latent ex16_m (lg_task ex14_g) (lg_E ex14_g) (st_w st) (fst p) (snd p)).
Proof.
  split; [exact ex14_setup|]. split; [repeat constructor|]. split; [exact ex16_valid|]. split; [exact ex16_exact|]. split; [discriminate|]. split; [reflexivity|].
  split; [intros a b _; unfold nats_eqb; destruct (list_eq_dec Nat.eq_dec a b); [auto|discriminate]|]. split; [exact ex16_completes|].
  destruct ex16_trace as [b1 [b2 [A1 [A2 [A3 [A4 A5]]]]]]. eexists. split; [exact A1|]. split; [reflexivity|].
  intros H st curve primal why [Q|[Q|[]]]; injection Q as <- ->; cbn [snd] in A4, A5; [split; [exact A4|]|split; [exact A5|]].
  - apply ex16_exact_at. left. exact A2.
  - apply ex16_exact_at. right. exact A3.
Qed.
(** The descent theorem applied to that run: the latent objective is smaller after the second fit. *)
Example C40_descent_applied : exists b1 b2, ex16_run = Ok (ex16_init, [(ex16_init, b1); ([[1; 1]%nat], b2)], NoChange) /\
  latent_descends (lg_task ex14_g) (lg_E ex14_g) (ns_C ex16_prm) (ns_eps ex16_prm 1) (combine ex16_Xs ex16_Ys) (st_w (fst (fst (fst b1)))) (st_w (fst (fst (fst b2)))).
Proof.
  destruct C40_hypotheses_met as [P1 [P2 [P3 [P4 [P5 [P6 [P7 [P8 [l [R1 [R2 R3]]]]]]]]]]]. destruct ex16_trace as [b1 [b2 [A1 _]]].
  exists b1, b2. split; [exact A1|]. assert (l = [(ex16_init, b1); ([[1; 1]%nat], b2)]) by congruence. subst l.
  destruct (C40_latent_graph 2 1 _ ex14_g max_product_solver ex14_cluster ex16_solver ex16_prm nats_eqb ex16_Xs ex16_Ys 5 (Some ex16_init) ex16_init _ NoChange
    P1 P2 P3 eq_refl P4 P5 P6 P7 P8 R1 R3) as [D _].
  apply (D ex16_init b1 [[1; 1]%nat] b2). exists [], []. reflexivity.
Qed.
Example C41_C_computed : let a := set_C (ofN 5) (BaseAttrs tt (Some (WArray [1; 0])) 1 1 0) in get_C a = 1 /\ get_w a = Ok (WNumber (ofN 5)).
Proof. split; reflexivity. Qed.

Print Assumptions C40_trace.
Print Assumptions C40_labels_differ.
Print Assumptions C40_descent.
Print Assumptions C40_descent_total.
Print Assumptions C40_fixed_point.
Print Assumptions C40_constraints_adjusted.
Print Assumptions C40_nslack_guarantee.
Print Assumptions C40_nslack_descent.
Print Assumptions C40_oneslack_guarantee.
Print Assumptions C40_oneslack_descent.
Print Assumptions C40_latent_graph.
Print Assumptions C40_perceptron_base_fails.
Print Assumptions C40_frankwolfe_base.
Print Assumptions C40_completion_error.
Print Assumptions C40_predict.
Print Assumptions C40_score.
Print Assumptions C41_model.
Print Assumptions C41_w.
Print Assumptions C41_w_unfitted.
Print Assumptions C41_n_jobs.
Print Assumptions C41_verbose.
Print Assumptions C41_C_refuted.
Print Assumptions C40_score_nothing.

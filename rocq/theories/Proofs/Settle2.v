(** LatentSSVM settles: LatentGraphCRF, the one-slack base learner. *)
From Verif Require Import Model.LatentSSVM Model.ChainCRF Spec.SolverSpec Spec.GraphSpec Proofs.Arrays Proofs.LossProofs Proofs.LearnerProofs Proofs.QPProofs Proofs.OneSlackCache Proofs.OneSlackProofs Proofs.OneSlackProofs2
  Proofs.OneSlackProofs4 Proofs.LatentProofs Proofs.LatentProofs2 Proofs.LatentProofs3 Proofs.LatentProofs4 Proofs.LatentSSVMProofs Proofs.LatentSSVMProofs2 Proofs.LatentSSVMProofs3 Proofs.LatentProofs5 Proofs.NSlackProofs3 Proofs.Settle Spec.SettleSpec.

Lemma offset_S counts l : (l < length counts)%nat -> offset counts (S l) = (offset counts l + nth l counts 0)%nat.
Proof.
  unfold offset. revert counts. induction l as [|l IH]; intros [|c r] H; cbn in H; try lia; [cbn; lia|].
  change (list_sum (firstn (S (S l)) (c :: r))) with (c + list_sum (firstn (S l) r))%nat. change (list_sum (firstn (S l) (c :: r))) with (c + list_sum (firstn l r))%nat. cbn [nth]. rewrite IH by lia. lia.
Qed.
Definition explanations (counts y : list nat) : list (list nat) := choices (map (fun s => seq (offset counts s) (nth s counts 0%nat)) y).
Lemma explanations_all counts h y : explains counts h y -> In h (explanations counts y).
Proof.
  intro H. apply in_choices. unfold explains in H. induction H as [|s l h y [Q1 Q2] H IH]; [constructor|]. cbn [map]. constructor; [|exact IH]. apply in_seq. rewrite offset_S in Q2 by exact Q1. lia.
Qed.
Lemma explanations_length counts y : length (explanations counts y) = product (map (fun s => nth s counts 0%nat) y).
Proof. unfold explanations. rewrite choices_length, map_map. f_equal. apply map_ext. intro s. apply seq_length. Qed.

Section graph.
Variables (nl nf : nat) (pl : per_label) (g : lg_crf) (solve : solver) (cluster : clusterer).
Context {B : Type} (bl : base_learner graph_x (list nat) B).
Variables (Xs : list graph_x) (Ys : list (list nat)) (C : Qc) (k : nat) (Hi : option (list (list nat))) (H0 : list (list nat)) (l : list (list (list nat) * B)) (stop : latent_stop).
Lemma graph_settles : lg_setup nl nf pl = Ok g -> Forall (fun c => (0 < c)%nat) (lg_counts g) -> lg_samples nl nf solve (combine Xs Ys) ->
  length Xs = length Ys -> 0 <= C ->
  (match Hi with Some H => completes (lg_E g) Xs Ys H | None => clusters cluster end) ->
  cccp_fit labels_differ (lg_lmodel solve cluster g) bl Xs Ys k Hi = Ok (H0, l, stop) ->
  (forall H b, In (H, b) l -> near_minimal (lg_task g) (g_size (lg_graph g)) C (combine Xs H) (bl_w bl b) 0 /\
     forall p, In p (combine Xs Ys) -> exact_latent (lg_lmodel solve cluster g) (lg_task g) (lg_E g) (bl_w bl b) (fst p) (snd p)) ->
  NoDup (map fst l) /\
  (length l <= product (map (fun y => product (map (fun s => nth s (lg_counts g) 0%nat) y)) Ys))%nat /\
  ((product (map (fun y => product (map (fun s => nth s (lg_counts g) 0%nat) y)) Ys) < k)%nat -> stop = NoChange).
Proof.
  intros EG HK HS HL HC HI EF HX. set (m := lg_lmodel solve cluster g) in *. set (E := lg_E g). set (T := lg_task g). set (d := g_size (lg_graph g)).
  assert (I0 : completes E Xs Ys H0).
  { destruct (fit_trace _ _ _ _ _ _ _ _ _ _ EF) as [A _]. destruct Hi as [H|]; [rewrite A; exact HI|].
    assert (F := init_explains cluster nl nf pl g _ _ HI EG A). clear - F. unfold completes, E, lg_E. induction F as [|s h S H [F1 _] F IH]; constructor; auto. }
  assert (G : forall H b, In (H, b) l -> near_minimal T d C (combine Xs H) (bl_w bl b) 0 /\ Forall (latent_exact m T E d (bl_w bl b)) (combine Xs Ys)).
  { intros H b Q. destruct (HX H b Q) as [A1 A2]. split; [exact A1|]. exact (graph_latent_exact nl nf pl g solve cluster EG HK (combine Xs Ys) HS (bl_w bl b) (proj1 A1) A2). }
  assert (HO := graph_observed nl nf pl g solve cluster EG HK (combine Xs Ys) HS). assert (HE := graph_completed_exact nl nf pl g solve EG HK (combine Xs Ys) HS).
  assert (HR : forall p h, In p (combine Xs Ys) -> E (fst p) (snd p) h -> labels_differ h h = false) by (intros p h _ _; apply differ_same; reflexivity).
  split; [exact (exact_no_repeat T E d labels_differ m bl Xs Ys C HL HC HO HE HR k Hi H0 l stop EF I0 G)|].
  assert (K := exact_ends T E d labels_differ m bl Xs Ys C HL HC HO HE HR k Hi H0 l stop EF I0 G (map (explanations (lg_counts g)) Ys)).
  rewrite map_map in K. rewrite (map_ext (fun x => length (explanations (lg_counts g) x)) (fun y => product (map (fun s => nth s (lg_counts g) 0%nat) y))) in K by (intro y; apply explanations_length).
  apply K. clear - HL. revert Ys HL. induction Xs as [|x xs IH]; intros [|y ys] HL; try discriminate HL; cbn [combine map]; constructor; [|apply IH; cbn in HL; lia].
  intros h Hh. apply explanations_all. exact Hh.
Qed.
End graph.

Section oneslack.
Context {X Y : Type} (T : task X Y) (E : X -> Y -> Y -> Prop) (d : nat) (ceq : Y -> Y -> res bool) (solve : qp_solver) (prm : os_params) (m : lmodel X Y) (bm : bmodel X Y).
Variables (ydiff : Y -> Y -> bool) (Xs : list X) (Ys : list Y).
Lemma oneslack_near k Hi H0 l stop : (0 < length Xs)%nat -> 0 <= o_C prm -> 0 <= o_tol prm -> length Xs = length Ys -> qp_exact solve -> o_neg prm = None ->
  (forall H, completes E Xs Ys H -> batch_exact bm T d Xs H) -> o_cache prm = O \/ sm_rescale (bm_s bm) = false ->
  observed_loss T E (combine Xs Ys) -> completes_all m E d (combine Xs Ys) ->
  cccp_fit ydiff m (oneslack_base ceq solve prm bm) Xs Ys k Hi = Ok (H0, l, stop) -> completes E Xs Ys H0 ->
  forall H st why, In (H, (st, why)) l -> why = OSNoConstraint -> In (vzero d, 0) (o_cons st) -> near_minimal T d (o_C prm) (combine Xs H) (o_w st) (os_eps prm (length Xs)).
Proof.
  intros HN0 HC HT HL HS HN HB HR HO HA EF HH0 H st why Q EW HG.
  assert (ON : forall H ws b, completes E Xs Ys H -> start_ok T d Xs H ws -> os_fit ceq solve prm bm None Xs H ws = Ok b -> snd b = OSNoConstraint -> In (vzero d, 0) (o_cons (fst b)) ->
    near_minimal T d (o_C prm) (combine Xs H) (o_w (fst b)) (os_eps prm (length Xs))).
  { clear - HN0 HC HT HL HS HN HB HR. intros H ws [st re] HH HW EF. cbn [fst snd]. intros -> HG.
    assert (HU : usable T d prm Xs H bm). { split; [apply (HB H HH)|exact HR]. }
    assert (HUS : forall b, None = Some b -> usable T d prm Xs H b). { intros b Eb. discriminate Eb. }
    destruct (fit1_lower_bound_gen T d ceq solve prm Xs H ws bm None st OSNoConstraint HN0 HC (qp_exact_sound _ HS) HU HUS HW EF) as [A1 _].
    assert (HBS' : forall b, None = Some b -> batch_exact b T d Xs H /\ (o_cache prm = O \/ sm_rescale (bm_s b) = false)).
    { intros b Eb. discriminate Eb. }
    destruct (fit1_near_optimal_gen T d ceq solve prm Xs H ws bm None st HN0 HC HT (qp_exact_sound _ HS) (HB H HH) HR HBS' HW EF) as [h1 [v1 [B1 [_ [_ [_ B2]]]]]].
    split; [exact A1|]. exists h1. split; [exact B1|]. intros v hv Hv Hhv. unfold os_eps. rewrite Qcplus_assoc. exact (B2 HS HN HG v hv Hv Hhv). }
  assert (G := trace_inv ydiff m (oneslack_base ceq solve prm bm) Xs Ys
    (fun H b => os_good T E d ceq solve prm bm Xs Ys H b /\
       (snd b = OSNoConstraint -> In (vzero d, 0) (o_cons (fst b)) -> near_minimal T d (o_C prm) (combine Xs H) (o_w (fst b)) (os_eps prm (length Xs)))) k Hi H0 l stop EF).
  assert (GD := oneslack_good T E d ceq solve prm bm Xs Ys HN0 HC HT HL HS HN (conj HB HR) HO).
  refine (proj2 (G _ _ H (st, why) Q) EW HG); clear G Q EW HG H st why.
  - intros b Eb. split; [exact (GD H0 Cold b HH0 I Eb)|exact (ON H0 Cold b HH0 I Eb)].
  - intros H b H' b' [[G1 [G2 [G3 _]]] _] [I1 [_ [cs [I2 I3]]]]. cbn [fst snd] in *.
    assert (HH' := completed_at_completes E d m _ Xs Ys H' HA G2 I1).
    destruct b as [st re]. cbn [oneslack_base bl_cons bl_refit bl_w fst snd] in *.
    assert (SO := cache_kept T E Xs Ys HL HO _ H H' G1 HH' G3).
    split; [eapply GD; [exact HH'| |exact I3]|eapply ON; [exact HH'| |exact I3]]; cbn [start_ok oa_icache]; exact SO.
Qed.
End oneslack.

(** Training on labelling tasks: the number of labellings bounds the rounds of the n-slack
    learner; compositions with the model classes. *)
From Verif Require Import Spec.MoreTasks Model.MoreInstances Spec.CuttingPlaneSpec Spec.SpanSpec Spec.SolverSpec Proofs.Arrays Proofs.LossProofs
  Proofs.GraphCRFProofs Proofs.EdgeFeatureProofs Proofs.EdgeFeatureProofs2 Proofs.InstanceProofs Proofs.MoreInstanceProofs
  Proofs.NSlackProofs3 Proofs.OneSlackProofs2 Proofs.CuttingPlane4 Proofs.CuttingPlane5 Proofs.LatentSSVMProofs2.

Lemma labels_eqb_refl a : labels_eqb a a = true.
Proof.
  unfold labels_eqb. rewrite Nat.eqb_refl. cbn [andb]. apply forallb_forall. intros [u v] H.
  assert (u = v). { clear - H. induction a; [destruct H|]. destruct H as [H|H]; [congruence|auto]. }
  subst. apply Nat.eqb_refl.
Qed.
Lemma labels_eqb_eq a : forall b, labels_eqb a b = true -> a = b.
Proof.
  induction a as [|u a IH]; intros [|v b] H; try discriminate; auto.
  apply Bool.andb_true_iff in H. destruct H as [H1 H2]. cbn [length combine forallb fst snd] in *.
  apply Bool.andb_true_iff in H2. destruct H2 as [H2 H3]. apply Nat.eqb_eq in H2. subst v. f_equal. apply IH.
  unfold labels_eqb. rewrite H3. cbn [Nat.eqb] in H1. rewrite H1. reflexivity.
Qed.

(** all labellings of n nodes *)
Fixpoint all_labellings (n k : nat) : list (list nat) :=
  match n with
  | O => [[]]
  | S n => flat_map (fun s => map (cons s) (all_labellings n k)) (seq 0 k)
  end.
Lemma all_labellings_length n k : length (all_labellings n k) = (k ^ n)%nat.
Proof.
  induction n as [|n IH]; [reflexivity|]. cbn [all_labellings Nat.pow]. generalize 0%nat. revert IH. generalize (all_labellings n k) as l.
  intros l IH. assert (G : forall j s, length (flat_map (fun s => map (cons s) l) (seq s j)) = (j * k ^ n)%nat).
  { induction j; intros s; cbn [seq flat_map]; [reflexivity|]. rewrite app_length, map_length, IHj, IH. lia. }
  intros s. apply G.
Qed.
Lemma all_labellings_in k : forall n y, Energy.labelling n k y -> In y (all_labellings n k).
Proof.
  induction n as [|n IH]; intros y [L F].
  - destruct y; [left; reflexivity|discriminate].
  - destruct y as [|s y]; [discriminate|]. cbn [all_labellings]. inversion F; subst. apply in_flat_map. exists s.
    split; [apply in_seq; lia|]. apply in_map, IH. split; [injection L as L; exact L|assumption].
Qed.

Section Labelling.
Context {X : Type} (T : task X (list nat)) (nodes : X -> nat) (k : nat) (c : nat -> Qc) (d : nat).
Hypothesis HT : forall x y, t_label T x y -> Energy.labelling (nodes x) k y.
Hypothesis HLoss : forall y y', t_loss T y y' = hamming (length y) c (lab y) (lab y').
Hypothesis Hc : forall s, (s < k)%nat -> 0 < c s.
Lemma labelling_zero x y y' : t_label T x y -> t_label T x y' -> t_loss T y y' <= 0 -> y' = y.
Proof.
  intros H H' L. destruct (HT x y H) as [L1 F1]. destruct (HT x y' H') as [L2 F2]. rewrite HLoss in L.
  assert (P : forall i, (i < length y)%nat -> 0 < c (lab y i)).
  { intros i Hi. apply Hc. rewrite Forall_forall in F1. apply F1. apply nth_In. exact Hi. }
  assert (Z : hamming (length y) c (lab y) (lab y') = 0).
  { apply Qcle_antisym; [exact L|]. apply hamming_nonneg. intros i Hi. apply Qclt_le_weak, P, Hi. }
  assert (E := hamming_zero _ _ _ _ P Z). symmetry. apply (nth_ext _ _ 0%nat 0%nat); [congruence|]. exact E.
Qed.
Lemma labelling_converges solve prm (m : smodel X (list nat)) sw Xs Ys old st curve primal reason :
  0 <= ns_C prm -> length Xs = length Ys -> sm_size m = d ->
  oracle_exact m T d (combine Xs Ys) -> (forall m', sw = Some m' -> oracle_exact m' T d (combine Xs Ys)) ->
  ns_window prm = O -> ns_neg prm = None -> ns_tol prm <= 0 -> qp_exact solve ->
  answers_all solve (ns_C prm) (length Xs) T (combine Xs Ys) ->
  (list_sum (map (fun x => k ^ nodes x) Xs) + (if sw then 1 else 0) < ns_max_iter prm)%nat ->
  ns_fit labels_eqb solve prm m sw Xs Ys None old = Ok (st, curve, primal, reason) ->
  reason = NoNewConstraint /\
  forall hs w' hs', hinges T (st_w st) (combine Xs Ys) hs -> length w' = d -> hinges T w' (combine Xs Ys) hs' ->
    primal_value (ns_C prm) (st_w st) hs <= primal_value (ns_C prm) w' hs' +
       ns_C prm * (ofN (length Xs) * small) + qp_reg * (ofN (length Xs) * (ns_C prm * ns_C prm)).
Proof.
  intros H1 H2 H3 H4 H5 H6 H7 H8 H9 H10 H11 H12.
  apply (many_converges T d labels_eqb solve prm m sw Xs Ys (fun p => all_labellings (nodes (fst p)) k) old st curve primal reason); try assumption.
  - exact labels_eqb_refl.
  - intros p a b Hp Ha Hb E. apply labels_eqb_eq in E. subst. auto.
  - intros p y' Hp H' L. f_equal. apply (labelling_zero (fst p)); auto. apply (H4 p Hp).
  - intros p y' _ H'. apply all_labellings_in. apply HT. exact H'.
  - replace (map (fun p : X * list nat => length (all_labellings (nodes (fst p)) k)) (combine Xs Ys)) with (map (fun x => (k ^ nodes x)%nat) Xs); [exact H11|].
    clear - H2. revert Ys H2. induction Xs as [|x Xs IH]; intros [|y Ys] H2; try discriminate; cbn [map combine]; [reflexivity|].
    rewrite all_labellings_length. f_equal. apply IH. injection H2 as H2. exact H2.
Qed.
End Labelling.

Lemma exact_hinges {X Y} (m : smodel X Y) T d S w : oracle_exact m T d S -> length w = d -> exists hs, hinges T w S hs.
Proof.
  intros H Hw. induction S as [|p S IH]. { exists []. constructor. }
  destruct IH as [hs IH]. { intros q Hq. apply H. right. exact Hq. }
  destruct (H p (or_introl eq_refl)) as [_ B]. destruct (B w Hw) as [yh [_ [L M]]].
  exists (margin T w (fst p) (snd p) yh :: hs). constructor; [|exact IH]. split; [eauto|].
  intros y' H'. specialize (M y' H'). unfold margin. qclra.
Qed.
Lemma labelling_fit {X} (T : task X (list nat)) (nodes : X -> nat) k c d (m : smodel X (list nat)) solve prm Xs Ys old st curve primal reason :
  (forall x y, t_label T x y -> Energy.labelling (nodes x) k y) ->
  (forall y y', t_loss T y y' = hamming (length y) c (lab y) (lab y')) -> (forall s, (s < k)%nat -> 0 < c s) ->
  length Xs = length Ys -> sm_size m = d -> oracle_exact m T d (combine Xs Ys) ->
  0 <= ns_C prm -> ns_window prm = O -> ns_neg prm = None -> ns_tol prm <= 0 -> qp_exact solve ->
  answers_all solve (ns_C prm) (length Xs) T (combine Xs Ys) ->
  (list_sum (map (fun x => k ^ nodes x) Xs) < ns_max_iter prm)%nat ->
  ns_fit labels_eqb solve prm m None Xs Ys None old = Ok (st, curve, primal, reason) ->
  reason = NoNewConstraint /\ within T d (ns_C prm) (combine Xs Ys) (st_w st) (n_gap (ns_C prm) (length Xs)).
Proof.
  intros HT HLo Hp HXY Hd HO HC HW HN HTol HQ HA HM E.
  assert (HN' : forall m', None = Some m' -> oracle_exact m' T d (combine Xs Ys)) by discriminate.
  rewrite <- (Nat.add_0_r (list_sum _)) in HM.
  destruct (labelling_converges T nodes k c d HT HLo Hp solve prm m None Xs Ys old st curve primal reason HC HXY Hd HO HN' HW HN HTol HQ HA HM E) as [A B].
  split; [exact A|].
  assert (Lw : length (st_w st) = d).
  { assert (OK : oracle_ok m T d (combine Xs Ys)) by (apply exact_is_ok; exact HO).
    assert (OK' : forall m', None = Some m' -> oracle_ok m' T d (combine Xs Ys)) by discriminate.
    exact (proj1 (fit_state T d labels_eqb solve prm HC Xs Ys m None None old st curve primal reason HXY (qp_exact_sound solve HQ) Hd OK OK' I E)). }
  destruct (exact_hinges m T d _ _ HO Lw) as [hs Hh]. exists hs. split; [exact Hh|]. intros w' hs' L' H'. unfold n_gap. rewrite Qcplus_assoc. exact (B hs w' hs' Hh L' H').
Qed.

(** ** the model classes: exact inference on a whole sample *)
Lemma chain_oracle g cw S : (0 < g_states g)%nat -> length cw = g_states g ->
  (forall x y, In (x, y) S -> mat_ok x /\ mcols x = g_features g /\ (0 < mrows x)%nat /\ Energy.labelling (mrows x) (g_states g) y) ->
  oracle_exact (chain_smodel g cw) (chain_task g cw) (g_size g) S.
Proof.
  intros HK Hc HS [x y] H. destruct (HS x y H) as [A [B [D F]]]. split; [apply chain_implements; assumption|].
  intros w Hw. apply chain_exact_laug; assumption.
Qed.
Lemma grid_oracle solve g cw S : (0 < gr_features g)%nat -> (0 < gr_states g)%nat -> length cw = gr_states g ->
  (forall x y, In (x, y) S -> length (gr_data x) = (gr_h x * gr_w x * gr_features g)%nat /\
     Energy.labelling (gr_h x * gr_w x) (gr_states g) y /\
     exists es, make_grid_edges (gr_h x) (gr_w x) (gr_neighborhood g) = Ok es /\ exact_solver_on solve (gr_h x * gr_w x) es) ->
  oracle_exact (grid_smodel solve g cw) (grid_task g cw) (g_size (grid_gcrf g)) S.
Proof.
  intros HF HK Hc HS [x y] H. destruct (HS x y H) as [A [B [es [D F]]]]. split; [apply (grid_implements g cw x es); assumption|].
  intros w Hw. apply (grid_exact_laug g cw x es); assumption.
Qed.
Lemma dir_oracle solve K F cw S : (0 < F)%nat -> (0 < K)%nat -> length cw = K ->
  (forall x y, In (x, y) S -> length (gr_data x) = (gr_h x * gr_w x * F)%nat /\ Energy.labelling (gr_h x * gr_w x) K y /\
     exists es, make_grid_edges (gr_h x) (gr_w x) 4 = Ok es /\ exact_on_tables solve (gr_h x * gr_w x) es) ->
  oracle_exact (dir_smodel solve (GridCRF K F 4) cw) (dir_task (GridCRF K F 4) cw) (dir_size (GridCRF K F 4)) S.
Proof.
  intros HF HK Hc HS [x y] H. destruct (HS x y H) as [A [B [es [D E]]]]. split; [apply (dir_implements K F cw x es); assumption|].
  intros w Hw. apply (dir_exact_laug K F cw x es); assumption.
Qed.
Lemma ef_oracle solve g cw S : (0 < ef_edge_features g)%nat -> (0 < ef_states g)%nat -> length cw = ef_states g -> ef_sym g = [] -> ef_anti g = [] ->
  (forall x y, In (x, y) S -> valid_ex g x /\ Energy.labelling (mrows (ex_features x)) (ef_states g) y /\
     exact_on_tables solve (mrows (ex_features x)) (ex_edges x)) ->
  oracle_exact (ef_smodel solve g cw) (ef_task g cw) (ef_size g) S.
Proof.
  intros HF HK Hc E1 E2 HS [x y] H. destruct (HS x y H) as [A [B D]]. split; [apply (ef_implements g cw x); assumption|].
  intros w Hw. apply (ef_exact_laug g cw x); try assumption. rewrite E1, E2. apply respects_none.
Qed.
Lemma ml_oracle solve m S : graph_edges (ml_labels m) (ml_edges m) -> (2 <= ml_labels m)%nat -> exact_on_tables solve (ml_labels m) (ml_edges m) ->
  (forall x y, In (x, y) S -> length x = ml_features m /\ Energy.labelling (ml_labels m) 2 y) ->
  oracle_exact (ml_smodel solve m) (ml_task m) (ml_size m) S.
Proof.
  intros HE HL HV HS [x y] H. destruct (HS x y H) as [A B]. split; [apply (ml_implements m x); assumption|].
  intros w Hw. apply (ml_exact_laug m x); assumption.
Qed.
Lemma one_fit {X Y} (T : task X Y) d (ceq : Y -> Y -> res bool) solve prm (m : smodel X Y) Xs Ys R2 L st reason :
  let K := o_C prm * ofN (length Xs) in
  (0 < length Xs)%nat -> length Xs = length Ys -> sm_size m = d -> sm_rescale m = false -> oracle_exact m T d (combine Xs Ys) ->
  0 < o_C prm -> 0 < o_tol prm -> 0 < R2 -> o_window prm = O -> o_neg prm = None -> qp_exact solve ->
  (forall p y', In p (combine Xs Ys) -> t_label T (fst p) y' ->
     normsq (vsub (t_feat T (fst p) (snd p)) (t_feat T (fst p) y')) <= R2 /\ t_loss T (snd p) y' <= L) ->
  K * L + qp_reg * (K * K) / (1 + 1) < ofN (o_max_iter prm - 1) * (gain K (o_tol prm) R2 - qp_reg * (K * K) / (1 + 1)) ->
  os_fit ceq solve prm (base_bmodel m) None Xs Ys Cold = Ok (st, reason) ->
  reason = OSNoConstraint /\ within T d (o_C prm) (combine Xs Ys) (o_w st) (K * o_tol prm + qp_reg * (K * K)).
Proof.
  intros K HN HXY Hd HR HO HC HT H2 HW HNeg HQ HB HM E.
  assert (BE := base_batch_exact T d Xs Ys m HXY Hd HO).
  assert (HN' : forall b, None = Some b -> batch_exact b T d Xs Ys /\ (o_cache prm = O \/ sm_rescale (bm_s b) = false)) by discriminate.
  rewrite <- (Nat.sub_0_r (o_max_iter prm - 1)) in HM.
  destruct (one_converges T d ceq solve prm Xs Ys R2 L (base_bmodel m) None HN HC HT H2 HW HNeg HQ HB st reason BE (or_intror HR) HN' HM E) as [A [hs [B D]]].
  split; [exact A|]. exists hs. split; [exact B|]. intros w' hs' L' H'. rewrite Qcplus_assoc. exact (D w' hs' L' H').
Qed.

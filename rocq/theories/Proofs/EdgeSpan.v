(** EdgeFeatureGraphCRF with declared symmetric and antisymmetric edge features in the
    cutting-plane learners. *)
From Verif Require Import Spec.SpanSpec Spec.MoreTasks Spec.EdgeSpec Spec.SolverSpec Spec.CuttingPlaneSpec Model.MoreInstances Proofs.Arrays Proofs.LossProofs Proofs.LearnerProofs
  Proofs.EdgeFeatureProofs Proofs.EdgeFeatureProofs2 Proofs.MoreInstanceProofs Proofs.SpanProofs Proofs.SpanProofs2 Proofs.EndToEnd.

(** the declared blocks replaced by their (anti)symmetric parts *)
Definition ef_proj (g : ef_crf) (w : list Qc) : list Qc :=
  let k := ef_states g in let U := (k * ef_features g)%nat in
  tab1 (ef_size g) (fun i => if (i <? U)%nat then get1 w i
    else let j := (i - U)%nat in effective_weight k (ef_features g) (ef_sym g) (ef_anti g) w (j / (k * k)) (j mod (k * k) / k) (j mod (k * k) mod k)).

Lemma ef_subspace g : subspace (ef_size g) (ef_respecting g).
Proof.
  split; [split; [apply vzero_length|apply respects_vzero]|]. split; [intros a H; apply H|]. split.
  - intros a b [A1 [A2 A3]] [B1 [B2 B3]]. assert (L : length a = length b) by congruence. split; [rewrite vadd_length; congruence|].
    split; intros f s t Hf Hs Ht; unfold edge_weight in *; rewrite !get1_vadd by exact L.
    + rewrite (A2 f s t), (B2 f s t) by assumption. reflexivity.
    + rewrite (A3 f s t), (B3 f s t) by assumption. ring.
  - intros c a [A1 [A2 A3]]. split; [rewrite vscale_length; exact A1|].
    split; intros f s t Hf Hs Ht; unfold edge_weight in *; rewrite !get1_vscale.
    + rewrite (A2 f s t) by assumption. reflexivity.
    + rewrite (A3 f s t) by assumption. ring.
Qed.
Lemma proj_edge g w f s t : (f < ef_edge_features g)%nat -> (s < ef_states g)%nat -> (t < ef_states g)%nat ->
  edge_weight (ef_states g) (ef_features g) (ef_proj g w) f s t = effective_weight (ef_states g) (ef_features g) (ef_sym g) (ef_anti g) w f s t.
Proof.
  intros Hf Hs Ht. unfold edge_weight at 1, ef_proj. set (k := ef_states g) in *. set (U := (k * ef_features g)%nat).
  assert (B : (s * k + t < k * k)%nat) by nia. rewrite get1_tab1 by (unfold ef_size; fold k; fold U; nia).
  destruct (Nat.ltb_spec (U + (f * (k * k) + (s * k + t))) U); [lia|].
  replace (U + (f * (k * k) + (s * k + t)) - U)%nat with (s * k + t + f * (k * k))%nat by lia.
  rewrite Nat.div_add, Nat.mod_add by nia. rewrite (Nat.div_small (s * k + t)), (Nat.mod_small (s * k + t)) by exact B.
  rewrite (Nat.add_comm (s * k)). rewrite Nat.div_add, Nat.mod_add by lia. rewrite Nat.div_small, Nat.mod_small by exact Ht. reflexivity.
Qed.
Lemma proj_unary g w i : (i < ef_states g * ef_features g)%nat -> get1 (ef_proj g w) i = get1 w i.
Proof.
  intros Hi. unfold ef_proj. rewrite get1_tab1 by (unfold ef_size; lia). destruct (Nat.ltb_spec i (ef_states g * ef_features g)); [reflexivity|lia].
Qed.
Lemma ef_dot g a b : length a = ef_size g -> length b = ef_size g -> dot a b =
  sumn (ef_states g * ef_features g) (fun i => get1 a i * get1 b i) +
  sumn (ef_edge_features g) (fun f => sumn (ef_states g) (fun s => sumn (ef_states g) (fun t =>
    edge_weight (ef_states g) (ef_features g) a f s t * edge_weight (ef_states g) (ef_features g) b f s t))).
Proof.
  intros Ha Hb. rewrite dot_get by congruence. rewrite Ha. unfold ef_size. rewrite sumn_split. f_equal. rewrite sumn_mul. apply sumn_ext. intros f Hf.
  rewrite sumn_mul. apply sumn_ext. intros s Hs. apply sumn_ext. intros t Ht. unfold edge_weight. reflexivity.
Qed.
Lemma ef_projection g : ef_check_declared g = Ok tt -> projection (ef_size g) (ef_respecting g) (ef_proj g).
Proof.
  intros HD. apply ef_check_declared_ok in HD. destruct HD as [D0 [D1' D2]]. rewrite Forall_forall in D0, D1'. assert (D1 : forall f, In f (ef_sym g ++ ef_anti g) -> (f < ef_edge_features g)%nat) by (intros f H; apply in_app_or in H; destruct H; auto). intros w Hw.
  assert (H2 : (1 + 1 : Qc) <> 0) by discriminate. assert (LP : length (ef_proj g w) = ef_size g) by (unfold ef_proj; apply tab1_length).
  assert (SY : forall f s t, In f (ef_sym g) -> effective_weight (ef_states g) (ef_features g) (ef_sym g) (ef_anti g) w f s t =
     (edge_weight (ef_states g) (ef_features g) w f s t + 1 * edge_weight (ef_states g) (ef_features g) w f t s) / (1 + 1)).
  { intros f s t Hf. unfold effective_weight. rewrite (proj2 (existsb_eqb_In f (ef_sym g)) Hf). rewrite Qcmult_1_l. reflexivity. }
  assert (AN : forall f s t, In f (ef_anti g) -> effective_weight (ef_states g) (ef_features g) (ef_sym g) (ef_anti g) w f s t =
     (edge_weight (ef_states g) (ef_features g) w f s t + (- (1)) * edge_weight (ef_states g) (ef_features g) w f t s) / (1 + 1)).
  { intros f s t Hf. unfold effective_weight. destruct (existsb (Nat.eqb f) (ef_sym g)) eqn:E.
    - apply existsb_eqb_In in E. exfalso. exact (D2 f E Hf).
    - rewrite (proj2 (existsb_eqb_In f (ef_anti g)) Hf). reflexivity. }
  split.
  - split; [exact LP|]. split; intros f s t Hf Hs Ht; rewrite !proj_edge by (auto; apply D1; apply in_or_app; auto).
    + rewrite !SY by exact Hf. field. exact H2.
    + rewrite !AN by exact Hf. field. exact H2.
  - intros v [V1 [V2 V3]]. rewrite !(ef_dot g) by assumption. f_equal; [apply sumn_ext; intros i Hi; rewrite proj_unary by exact Hi; reflexivity|].
    apply sumn_ext. intros f Hf. assert (PE := proj_edge g w f). set (k := ef_states g) in *. set (F := ef_features g) in *.
    destruct (existsb (Nat.eqb f) (ef_sym g)) eqn:E1; [apply existsb_eqb_In in E1|destruct (existsb (Nat.eqb f) (ef_anti g)) eqn:E2; [apply existsb_eqb_In in E2|]].
    + rewrite (sumn_ext k _ (fun s => sumn k (fun t => ((edge_weight k F w f s t + 1 * edge_weight k F w f t s) / (1 + 1)) * edge_weight k F v f s t))).
      2:{ intros s Hs. apply sumn_ext. intros t Ht. rewrite PE by assumption. rewrite SY by exact E1. reflexivity. }
      rewrite <- (swap_adjoint 1 k (edge_weight k F w f) (edge_weight k F v f)). apply sumn_ext. intros s Hs. apply sumn_ext. intros t Ht.
      rewrite (V2 f t s E1 Ht Hs). field. exact H2.
    + rewrite (sumn_ext k _ (fun s => sumn k (fun t => ((edge_weight k F w f s t + (- (1)) * edge_weight k F w f t s) / (1 + 1)) * edge_weight k F v f s t))).
      2:{ intros s Hs. apply sumn_ext. intros t Ht. rewrite PE by assumption. rewrite AN by exact E2. reflexivity. }
      rewrite <- (swap_adjoint (- (1)) k (edge_weight k F w f) (edge_weight k F v f)). apply sumn_ext. intros s Hs. apply sumn_ext. intros t Ht.
      rewrite (V3 f t s E2 Ht Hs). field. exact H2.
    + apply sumn_ext. intros s Hs. apply sumn_ext. intros t Ht. rewrite PE by assumption. unfold effective_weight. rewrite E1, E2. reflexivity.
Qed.

Section Task.
Variables (g : ef_crf) (cw : list Qc) (solve : solver) (S : list (ef_x * list nat)).
Hypothesis HD : ef_check_declared g = Ok tt.
Hypothesis HF : (0 < ef_edge_features g)%nat.
Hypothesis HK : (0 < ef_states g)%nat.
Hypothesis HC : length cw = ef_states g.
Hypothesis HS : forall x y, In (x, y) S -> mcols (ex_features x) = ef_features g /\ mcols (ex_edge_features x) = ef_edge_features g /\
  mrows (ex_edge_features x) = length (ex_edges x) /\ graph_edges (mrows (ex_features x)) (ex_edges x) /\
  exact_on_tables solve (mrows (ex_features x)) (ex_edges x) /\ Energy.labelling (mrows (ex_features x)) (ef_states g) y.
Lemma ef_features_in : features_in (ef_task g cw) (ef_respecting g) S.
Proof.
  intros [x y] y' Hp Hy. cbn [fst snd] in *. destruct (HS x y Hp) as [H1 [H2 [H3 [H4 _]]]].
  destruct (ef_score_general g x (vzero (ef_size g)) y' HD H1 H2 H3 H4 (vzero_length _) Hy) as [psi [E _]].
  cbn [ef_task t_feat]. rewrite E. cbn [ok_or]. exact (ef_joint_feature_respects g x (EDiscrete y') psi HD Logic.I E).
Qed.
Lemma ef_exact_on : oracle_exact_on (ef_respecting g) (ef_smodel solve g cw) (ef_task g cw) (ef_size g) S.
Proof.
  intros [x y] Hp. cbn [fst snd]. destruct (HS x y Hp) as [H1 [H2 [H3 [H4 [H5 H6]]]]]. assert (VX := Build_valid_ex g x HD H1 H2 H3 H4). split.
  - exact (ef_implements g cw x VX HF solve y HC H6).
  - intros w [W1 W2]. exact (ef_exact_laug g cw x VX HF solve y w H5 W1 HK HC W2 H6).
Qed.
End Task.

(** ** training *)
Lemma labelling_fit_on {X} (T : task X (list nat)) nodes k c d V pi (m : smodel X (list nat)) solve prm Xs Ys old st curve primal reason :
  (forall x y, t_label T x y -> Energy.labelling (nodes x) k y) ->
  (forall y y', t_loss T y y' = hamming (length y) c (lab y) (lab y')) -> (forall s, (s < k)%nat -> 0 < c s) ->
  length Xs = length Ys -> sm_size m = d -> subspace d V -> projection d V pi -> features_in T V (combine Xs Ys) -> oracle_exact_on V m T d (combine Xs Ys) ->
  0 <= ns_C prm -> ns_window prm = O -> ns_neg prm = None -> ns_tol prm <= 0 -> qp_exact solve ->
  answers_all solve (ns_C prm) (length Xs) T (combine Xs Ys) ->
  (list_sum (map (fun x => k ^ nodes x) Xs) < ns_max_iter prm)%nat ->
  ns_fit labels_eqb solve prm m None Xs Ys None old = Ok (st, curve, primal, reason) ->
  V (st_w st) /\ reason = NoNewConstraint /\ within T d (ns_C prm) (combine Xs Ys) (st_w st) (n_gap (ns_C prm) (length Xs)).
Proof.
  intros HL HH HP HXY Hd HV HPi HF HO HC HW HN HT HQ HA HM E.
  assert (SW : forall m', None = Some m' -> oracle_ok_on V m' T d (combine Xs Ys)) by (intros m' Q; discriminate Q).
  destruct (n_agree T d V pi labels_eqb solve prm m None Xs Ys old HV HPi HXY Hd HF (exact_on_ok T d V _ m HO) SW) as [A B].
  cbn [option_map] in A. split; [exact (B _ _ _ _ E)|]. rewrite <- A in E.
  exact (labelling_fit T nodes k c d (project pi m) solve prm Xs Ys old st curve primal reason HL HH HP HXY Hd
    (project_exact T d V pi _ HPi HF m HO) HC HW HN HT HQ HA HM E).
Qed.
Lemma one_fit_on {X Y} (T : task X Y) d V pi ceq solve prm (m : smodel X Y) Xs Ys R2 L st reason :
  let K := o_C prm * ofN (length Xs) in
  (0 < length Xs)%nat -> length Xs = length Ys -> sm_size m = d -> sm_rescale m = false ->
  subspace d V -> projection d V pi -> features_in T V (combine Xs Ys) -> oracle_exact_on V m T d (combine Xs Ys) ->
  0 < o_C prm -> 0 < o_tol prm -> 0 < R2 -> o_window prm = O -> o_neg prm = None -> qp_exact solve ->
  (forall p y', In p (combine Xs Ys) -> t_label T (fst p) y' ->
     normsq (vsub (t_feat T (fst p) (snd p)) (t_feat T (fst p) y')) <= R2 /\ t_loss T (snd p) y' <= L) ->
  K * L + qp_reg * (K * K) / (1 + 1) < ofN (o_max_iter prm - 1) * (gain K (o_tol prm) R2 - qp_reg * (K * K) / (1 + 1)) ->
  os_fit ceq solve prm (base_bmodel m) None Xs Ys Cold = Ok (st, reason) ->
  V (o_w st) /\ reason = OSNoConstraint /\ within T d (o_C prm) (combine Xs Ys) (o_w st) (K * o_tol prm + qp_reg * (K * K)).
Proof.
  intros K HN HXY Hd HR HV HPi HF HO HC HT HR2 HW HNeg HQ HB HG E.
  destruct (one_agree T d V pi ceq solve prm m Xs Ys HV HPi HF HXY HN Hd (exact_on_ok T d V _ m HO) (or_intror HR)) as [A B].
  split; [exact (B _ _ E)|]. rewrite <- A in E.
  exact (one_fit T d ceq solve prm (project pi m) Xs Ys R2 L st reason HN HXY Hd HR (project_exact T d V pi _ HPi HF m HO) HC HT HR2 HW HNeg HQ HB HG E).
Qed.

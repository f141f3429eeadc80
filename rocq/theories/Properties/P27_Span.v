(** C66: learners on models whose inference is right on a subspace of the weights only. *)
From Verif Require Import Spec.MoreTasks Model.MoreInstances Spec.CuttingPlaneSpec Spec.SpanSpec Spec.SolverSpec Spec.EdgeSpec
  Proofs.Arrays Proofs.EdgeFeatureProofs2 Proofs.SpanProofs Proofs.SpanProofs2 Proofs.EdgeSpan Proofs.TableSolver Proofs.EdgeSpanExamples Proofs.LatentGridProofs3.

(** ** the weights stay in the span of the joint features *)
(** Any QP solver, any parameters, pruning, switch_to; inference is only asked to work on [V]. *)
Theorem C66_n_slack_stays : forall (X Y : Type) (T : task X Y) (d : nat) (V : list Qc -> Prop) (pi : list Qc -> list Qc) (yeq : Y -> Y -> bool)
    (solve : qp_solver) (prm : ns_params) (m : smodel X Y) (sw : option (smodel X Y)) (Xs : list X) (Ys : list Y) (old : option ns_attrs)
    (st : ns_state Y) (curve primal : list Qc) (reason : ns_stop),
  subspace d V -> projection d V pi -> length Xs = length Ys -> sm_size m = d -> features_in T V (combine Xs Ys) ->
  oracle_ok_on V m T d (combine Xs Ys) -> (forall m', sw = Some m' -> oracle_ok_on V m' T d (combine Xs Ys)) ->
  ns_fit yeq solve prm m sw Xs Ys None old = Ok (st, curve, primal, reason) -> V (st_w st).
Proof.
  exact (fun X Y T d V pi yeq solve prm m sw Xs Ys old st curve primal reason HV HP HL Hd HF HO HS E =>
    proj2 (n_agree T d V pi yeq solve prm m sw Xs Ys old HV HP HL Hd HF HO HS) st curve primal reason E).
Qed.
Theorem C66_one_slack_stays : forall (X Y : Type) (T : task X Y) (d : nat) (V : list Qc -> Prop) (pi : list Qc -> list Qc) (ceq : Y -> Y -> res bool)
    (solve : qp_solver) (prm : os_params) (m : smodel X Y) (Xs : list X) (Ys : list Y) (st : os_state Y) (reason : os_stop),
  subspace d V -> projection d V pi -> features_in T V (combine Xs Ys) -> length Xs = length Ys -> (0 < length Xs)%nat -> sm_size m = d ->
  oracle_ok_on V m T d (combine Xs Ys) -> o_cache prm = O \/ sm_rescale m = false ->
  os_fit ceq solve prm (base_bmodel m) None Xs Ys Cold = Ok (st, reason) -> V (o_w st).
Proof.
  exact (fun X Y T d V pi ceq solve prm m Xs Ys st reason HV HP HF HXY HN Hd HO HR E =>
    proj2 (one_agree T d V pi ceq solve prm m Xs Ys HV HP HF HXY HN Hd HO HR) st reason E).
Qed.

(** ** exactness on the subspace is enough *)
Theorem C66_n_slack_labellings : forall (X : Type) (T : task X (list nat)) (nodes : X -> nat) (k : nat) (c : nat -> Qc) (d : nat)
    (V : list Qc -> Prop) (pi : list Qc -> list Qc) (m : smodel X (list nat))
    (solve : qp_solver) (prm : ns_params) (Xs : list X) (Ys : list (list nat)) (old : option ns_attrs)
    (st : ns_state (list nat)) (curve primal : list Qc) (reason : ns_stop),
  (forall x y, t_label T x y -> Energy.labelling (nodes x) k y) ->
  (forall y y', t_loss T y y' = hamming (length y) c (lab y) (lab y')) -> (forall s, (s < k)%nat -> 0 < c s) ->
  length Xs = length Ys -> sm_size m = d -> subspace d V -> projection d V pi -> features_in T V (combine Xs Ys) -> oracle_exact_on V m T d (combine Xs Ys) ->
  0 <= ns_C prm -> ns_window prm = O -> ns_neg prm = None -> ns_tol prm <= 0 -> qp_exact solve ->
  answers_all solve (ns_C prm) (length Xs) T (combine Xs Ys) ->
  (list_sum (map (fun x => k ^ nodes x) Xs) < ns_max_iter prm)%nat ->
  ns_fit labels_eqb solve prm m None Xs Ys None old = Ok (st, curve, primal, reason) ->
  V (st_w st) /\ reason = NoNewConstraint /\ within T d (ns_C prm) (combine Xs Ys) (st_w st) (n_gap (ns_C prm) (length Xs)).
Proof. exact (fun X => @labelling_fit_on X). Qed.
Theorem C66_one_slack : forall (X Y : Type) (T : task X Y) (d : nat) (V : list Qc -> Prop) (pi : list Qc -> list Qc) (ceq : Y -> Y -> res bool)
    (solve : qp_solver) (prm : os_params) (m : smodel X Y) (Xs : list X) (Ys : list Y) (R2 L : Qc) (st : os_state Y) (reason : os_stop),
  let K := o_C prm * ofN (length Xs) in
  (0 < length Xs)%nat -> length Xs = length Ys -> sm_size m = d -> sm_rescale m = false ->
  subspace d V -> projection d V pi -> features_in T V (combine Xs Ys) -> oracle_exact_on V m T d (combine Xs Ys) ->
  0 < o_C prm -> 0 < o_tol prm -> 0 < R2 -> o_window prm = O -> o_neg prm = None -> qp_exact solve ->
  (forall p y', In p (combine Xs Ys) -> t_label T (fst p) y' ->
     normsq (vsub (t_feat T (fst p) (snd p)) (t_feat T (fst p) y')) <= R2 /\ t_loss T (snd p) y' <= L) ->
  K * L + qp_reg * (K * K) / (1 + 1) < ofN (o_max_iter prm - 1) * (gain K (o_tol prm) R2 - qp_reg * (K * K) / (1 + 1)) ->
  os_fit ceq solve prm (base_bmodel m) None Xs Ys Cold = Ok (st, reason) ->
  V (o_w st) /\ reason = OSNoConstraint /\ within T d (o_C prm) (combine Xs Ys) (o_w st) (K * o_tol prm + qp_reg * (K * K)).
Proof. exact (fun X Y => @one_fit_on X Y). Qed.

(** ** EdgeFeatureGraphCRF with declared symmetric and antisymmetric features *)
(** the weights that respect the declarations are a subspace with a projection that contains
    all joint features *)
Theorem C66_edge_feature_subspace : forall (g : ef_crf) (cw : list Qc) (solve : solver) (S : list (ef_x * list nat)),
  ef_check_declared g = Ok tt -> (0 < ef_edge_features g)%nat -> (0 < ef_states g)%nat -> length cw = ef_states g ->
  (forall x y, In (x, y) S -> mcols (ex_features x) = ef_features g /\ mcols (ex_edge_features x) = ef_edge_features g /\
     mrows (ex_edge_features x) = length (ex_edges x) /\ graph_edges (mrows (ex_features x)) (ex_edges x) /\
     exact_on_tables solve (mrows (ex_features x)) (ex_edges x) /\ Energy.labelling (mrows (ex_features x)) (ef_states g) y) ->
  subspace (ef_size g) (ef_respecting g) /\ (exists pi, projection (ef_size g) (ef_respecting g) pi) /\
  features_in (ef_task g cw) (ef_respecting g) S /\
  oracle_exact_on (ef_respecting g) (ef_smodel solve g cw) (ef_task g cw) (ef_size g) S.
Proof.
  exact (fun g cw solve S HD HF HK HC HS => conj (ef_subspace g) (conj (ex_intro _ (ef_proj g) (ef_projection g HD))
    (conj (ef_features_in g cw solve S HD HS) (ef_exact_on g cw solve S HD HF HK HC HS)))).
Qed.
Theorem C66_edge_feature_n_slack : forall (inf : solver) (g : ef_crf) (cw : list Qc) (solve : qp_solver) (prm : ns_params)
    (Xs : list ef_x) (Ys : list (list nat)) (old : option ns_attrs) (st : ns_state (list nat)) (curve primal : list Qc) (reason : ns_stop),
  ef_check_declared g = Ok tt -> (0 < ef_edge_features g)%nat -> (0 < ef_states g)%nat -> length cw = ef_states g ->
  (forall s, (s < ef_states g)%nat -> 0 < get1 cw s) -> length Xs = length Ys ->
  (forall x y, In (x, y) (combine Xs Ys) -> mcols (ex_features x) = ef_features g /\ mcols (ex_edge_features x) = ef_edge_features g /\
     mrows (ex_edge_features x) = length (ex_edges x) /\ graph_edges (mrows (ex_features x)) (ex_edges x) /\
     exact_on_tables inf (mrows (ex_features x)) (ex_edges x) /\ Energy.labelling (mrows (ex_features x)) (ef_states g) y) ->
  0 <= ns_C prm -> ns_window prm = O -> ns_neg prm = None -> ns_tol prm <= 0 -> qp_exact solve ->
  answers_all solve (ns_C prm) (length Xs) (ef_task g cw) (combine Xs Ys) ->
  (list_sum (map (fun x => ef_states g ^ mrows (ex_features x)) Xs) < ns_max_iter prm)%nat ->
  ns_fit labels_eqb solve prm (ef_smodel inf g cw) None Xs Ys None old = Ok (st, curve, primal, reason) ->
  ef_respecting g (st_w st) /\ reason = NoNewConstraint /\
  within (ef_task g cw) (ef_size g) (ns_C prm) (combine Xs Ys) (st_w st) (n_gap (ns_C prm) (length Xs)).
Proof.
  exact (fun inf g cw solve prm Xs Ys old st curve primal reason HD HF HK HC HP HXY HS =>
    labelling_fit_on (ef_task g cw) (fun x => mrows (ex_features x)) (ef_states g) (get1 cw) (ef_size g) (ef_respecting g) (ef_proj g) (ef_smodel inf g cw)
      solve prm Xs Ys old st curve primal reason (fun x y H => H) (fun y y' => eq_refl) HP HXY eq_refl (ef_subspace g) (ef_projection g HD)
      (ef_features_in g cw inf _ HD HS) (ef_exact_on g cw inf _ HD HF HK HC HS)).
Qed.
Theorem C66_edge_feature_one_slack : forall (inf : solver) (g : ef_crf) (cw : list Qc) (ceq : list nat -> list nat -> res bool) (solve : qp_solver) (prm : os_params)
    (Xs : list ef_x) (Ys : list (list nat)) (R2 L : Qc) (st : os_state (list nat)) (reason : os_stop),
  let K := o_C prm * ofN (length Xs) in
  ef_check_declared g = Ok tt -> (0 < ef_edge_features g)%nat -> (0 < ef_states g)%nat -> length cw = ef_states g ->
  (0 < length Xs)%nat -> length Xs = length Ys ->
  (forall x y, In (x, y) (combine Xs Ys) -> mcols (ex_features x) = ef_features g /\ mcols (ex_edge_features x) = ef_edge_features g /\
     mrows (ex_edge_features x) = length (ex_edges x) /\ graph_edges (mrows (ex_features x)) (ex_edges x) /\
     exact_on_tables inf (mrows (ex_features x)) (ex_edges x) /\ Energy.labelling (mrows (ex_features x)) (ef_states g) y) ->
  0 < o_C prm -> 0 < o_tol prm -> 0 < R2 -> o_window prm = O -> o_neg prm = None -> qp_exact solve ->
  (forall p y', In p (combine Xs Ys) -> t_label (ef_task g cw) (fst p) y' ->
     normsq (vsub (t_feat (ef_task g cw) (fst p) (snd p)) (t_feat (ef_task g cw) (fst p) y')) <= R2 /\ t_loss (ef_task g cw) (snd p) y' <= L) ->
  K * L + qp_reg * (K * K) / (1 + 1) < ofN (o_max_iter prm - 1) * (gain K (o_tol prm) R2 - qp_reg * (K * K) / (1 + 1)) ->
  os_fit ceq solve prm (base_bmodel (ef_smodel inf g cw)) None Xs Ys Cold = Ok (st, reason) ->
  ef_respecting g (o_w st) /\ reason = OSNoConstraint /\
  within (ef_task g cw) (ef_size g) (o_C prm) (combine Xs Ys) (o_w st) (K * o_tol prm + qp_reg * (K * K)).
Proof.
  intros inf g cw ceq solve prm Xs Ys R2 L st reason K HD HF HK HC HN HXY HS.
  exact (one_fit_on (ef_task g cw) (ef_size g) (ef_respecting g) (ef_proj g) ceq solve prm (ef_smodel inf g cw) Xs Ys R2 L st reason
    HN HXY eq_refl eq_refl (ef_subspace g) (ef_projection g HD) (ef_features_in g cw inf _ HD HS) (ef_exact_on g cw inf _ HD HF HK HC HS)).
Qed.

(** ** the hypotheses are met *)
(** one symmetric edge feature; the solver answers all fifteen working sets *)
Example C66_edge_feature_met :
  ef_check_declared ex27_g = Ok tt /\ length ex27_cw = ef_states ex27_g /\ (forall s, (s < ef_states ex27_g)%nat -> 0 < get1 ex27_cw s) /\
  (forall x y, In (x, y) (combine [ex27_x] [ex27_y]) -> mcols (ex_features x) = ef_features ex27_g /\ mcols (ex_edge_features x) = ef_edge_features ex27_g /\
     mrows (ex_edge_features x) = length (ex_edges x) /\ graph_edges (mrows (ex_features x)) (ex_edges x) /\
     exact_on_tables ex24_solve (mrows (ex_features x)) (ex_edges x) /\ Energy.labelling (mrows (ex_features x)) (ef_states ex27_g) y) /\
  qp_exact ex27_solver /\ answers_all ex27_solver (ns_C ex27_prm) (length [ex27_x]) (ef_task ex27_g ex27_cw) (combine [ex27_x] [ex27_y]) /\
  ns_window ex27_prm = O /\ ns_neg ex27_prm = None /\ ns_tol ex27_prm <= 0 /\ 0 <= ns_C ex27_prm /\
  (list_sum (map (fun x => ef_states ex27_g ^ mrows (ex_features x)) [ex27_x]) < ns_max_iter ex27_prm)%nat.
Proof.
  split; [reflexivity|]. split; [reflexivity|]. split. { intros [|[|s]] H; [reflexivity|reflexivity|cbn in H; lia]. }
  split. { intros x y [H|[]]. injection H as <- <-. split; [reflexivity|]. split; [reflexivity|]. split; [reflexivity|]. split; [repeat constructor|].
    split; [exact ex24_exact_tables|]. split; [reflexivity|repeat constructor]. }
  split; [apply table_exact|]. split; [exact ex27_answers|]. split; [reflexivity|]. split; [reflexivity|]. split; [discriminate|]. split; [discriminate|]. cbn. lia.
Qed.
Example C66_edge_feature_computed :
  match ns_fit labels_eqb ex27_solver ex27_prm (ef_smodel ex24_solve ex27_g ex27_cw) None [ex27_x] [ex27_y] None None with
  | Ok (st, curve, primal, NoNewConstraint) => (map this (st_w st) = [-1 # 8; 1 # 8; 0; 0; 0; 0] /\ map this curve = [7 # 64; 7 # 64; 7 # 64])%Q
  | _ => False
  end.
Proof. vm_compute. auto. Qed.
Print Assumptions C66_n_slack_stays.
Print Assumptions C66_one_slack_stays.
Print Assumptions C66_n_slack_labellings.
Print Assumptions C66_one_slack.
Print Assumptions C66_edge_feature_subspace.
Print Assumptions C66_edge_feature_n_slack.
Print Assumptions C66_edge_feature_one_slack.

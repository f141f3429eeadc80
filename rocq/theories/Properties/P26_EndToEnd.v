(** C65: the grid, edge-feature and multi-label models compute their tasks; whole training runs. *)
From Coq Require Import ZArith.
From Verif Require Import Spec.MoreTasks Model.MoreInstances Spec.CuttingPlaneSpec Spec.SpanSpec Spec.SolverSpec Spec.EdgeSpec
  Proofs.Arrays Proofs.EdgeFeatureProofs2 Proofs.MoreInstanceProofs Proofs.EndToEnd Proofs.EndToEndExamples Proofs.LatentGridProofs3 Proofs.InstanceProofs.

(** ** the model objects *)
Theorem C65_gridcrf_implements_task :
  forall (solve : solver) (g : grid_crf) (cw : list Qc) (x : grid_x) (y : list nat) (w : list Qc) (es : list (nat * nat)),
    (0 < gr_features g)%nat -> (0 < gr_states g)%nat -> length cw = gr_states g -> length w = g_size (grid_gcrf g) ->
    length (gr_data x) = (gr_h x * gr_w x * gr_features g)%nat ->
    make_grid_edges (gr_h x) (gr_w x) (gr_neighborhood g) = Ok es -> exact_solver_on solve (gr_h x * gr_w x) es ->
    Energy.labelling (gr_h x * gr_w x) (gr_states g) y ->
    implements (grid_smodel solve g cw) (grid_task g cw) (g_size (grid_gcrf g)) x y /\
    exact_laug (grid_smodel solve g cw) (grid_task g cw) w x y /\
    exact_inference (grid_smodel solve g cw) (grid_task g cw) w x.
Proof.
  exact (fun solve g cw x y w es HF HK Hc Hw HL HE HS Hy =>
    conj (grid_implements g cw x es HF HL HE solve y Hc Hy)
      (conj (grid_exact_laug g cw x es HF HL HE solve y w HS Hw HK Hc Hy) (grid_exact_inference g cw x es HF HL HE solve w HS Hw HK))).
Qed.
(** four neighbours; with eight the score is another one, see C13 *)
Theorem C65_directional_implements_task :
  forall (solve : solver) (K F : nat) (cw : list Qc) (x : grid_x) (y : list nat) (w : list Qc) (es : list (nat * nat)),
    let g := GridCRF K F 4 in
    (0 < F)%nat -> (0 < K)%nat -> length cw = K -> length w = dir_size g ->
    length (gr_data x) = (gr_h x * gr_w x * F)%nat ->
    make_grid_edges (gr_h x) (gr_w x) 4 = Ok es -> exact_on_tables solve (gr_h x * gr_w x) es ->
    Energy.labelling (gr_h x * gr_w x) K y ->
    implements (dir_smodel solve g cw) (dir_task g cw) (dir_size g) x y /\
    exact_laug (dir_smodel solve g cw) (dir_task g cw) w x y /\
    exact_inference (dir_smodel solve g cw) (dir_task g cw) w x.
Proof.
  exact (fun solve K F cw x y w es HF HK Hc Hw HL HE HS Hy =>
    conj (dir_implements K F cw x es HF HL HE solve y Hc Hy)
      (conj (dir_exact_laug K F cw x es HF HL HE solve y w HS Hw HK Hc Hy) (dir_exact_inference K F cw x es HF HL HE solve w HS Hw HK))).
Qed.
(** exact for weights that respect the declared symmetries *)
Theorem C65_edge_feature_implements_task :
  forall (solve : solver) (g : ef_crf) (cw : list Qc) (x : ef_x) (y : list nat) (w : list Qc),
    ef_check_declared g = Ok tt -> mcols (ex_features x) = ef_features g -> mcols (ex_edge_features x) = ef_edge_features g ->
    mrows (ex_edge_features x) = length (ex_edges x) -> graph_edges (mrows (ex_features x)) (ex_edges x) ->
    (0 < ef_edge_features g)%nat -> (0 < ef_states g)%nat -> length cw = ef_states g -> length w = ef_size g ->
    exact_on_tables solve (mrows (ex_features x)) (ex_edges x) ->
    Energy.labelling (mrows (ex_features x)) (ef_states g) y ->
    implements (ef_smodel solve g cw) (ef_task g cw) (ef_size g) x y /\
    (respects_symmetry (ef_states g) (ef_features g) (ef_sym g) (ef_anti g) w ->
     exact_laug (ef_smodel solve g cw) (ef_task g cw) w x y /\ exact_inference (ef_smodel solve g cw) (ef_task g cw) w x).
Proof.
  exact (fun solve g cw x y w D1 D2 D3 D4 D5 HF HK Hc Hw HS Hy =>
    let V := Build_valid_ex g x D1 D2 D3 D4 D5 in
    conj (ef_implements g cw x V HF solve y Hc Hy)
      (fun HR => conj (ef_exact_laug g cw x V HF solve y w HS Hw HK Hc HR Hy) (ef_exact_inference g cw x V HF solve w HS Hw HK HR))).
Qed.
Theorem C65_multilabel_implements_task :
  forall (solve : solver) (m : ml_clf) (x : list Qc) (y : list nat) (w : list Qc),
    graph_edges (ml_labels m) (ml_edges m) -> length x = ml_features m -> (2 <= ml_labels m)%nat -> length w = ml_size m ->
    exact_on_tables solve (ml_labels m) (ml_edges m) -> Energy.labelling (ml_labels m) 2 y ->
    implements (ml_smodel solve m) (ml_task m) (ml_size m) x y /\
    exact_laug (ml_smodel solve m) (ml_task m) w x y /\ exact_inference (ml_smodel solve m) (ml_task m) w x.
Proof.
  exact (fun solve m x y w HE HX HL Hw HS Hy =>
    conj (ml_implements m x HE HX HL solve y Hy) (conj (ml_exact_laug m x HE HX HL solve y w HS Hw Hy) (ml_exact_inference m x HE HX solve w HS Hw))).
Qed.

(** ** NSlackSSVM *)
(** Labelling tasks, any model with exact loss-augmented inference, an exact QP solver that
    always answers, no pruning, no early stop, more iterations than labellings: if training
    returns, it has stopped by itself within [n_gap] of the optimum. *)
Theorem C65_n_slack_labellings :
  forall (X : Type) (T : task X (list nat)) (nodes : X -> nat) (k : nat) (c : nat -> Qc) (d : nat) (m : smodel X (list nat))
         (solve : qp_solver) (prm : ns_params) (Xs : list X) (Ys : list (list nat)) (old : option ns_attrs)
         (st : ns_state (list nat)) (curve primal : list Qc) (reason : ns_stop),
    (forall x y, t_label T x y -> Energy.labelling (nodes x) k y) ->
    (forall y y', t_loss T y y' = hamming (length y) c (lab y) (lab y')) -> (forall s, (s < k)%nat -> 0 < c s) ->
    length Xs = length Ys -> sm_size m = d -> oracle_exact m T d (combine Xs Ys) ->
    0 <= ns_C prm -> ns_window prm = O -> ns_neg prm = None -> ns_tol prm <= 0 -> qp_exact solve ->
    answers_all solve (ns_C prm) (length Xs) T (combine Xs Ys) ->
    (list_sum (map (fun x => k ^ nodes x) Xs) < ns_max_iter prm)%nat ->
    ns_fit labels_eqb solve prm m None Xs Ys None old = Ok (st, curve, primal, reason) ->
    reason = NoNewConstraint /\ within T d (ns_C prm) (combine Xs Ys) (st_w st) (n_gap (ns_C prm) (length Xs)).
Proof. exact (fun X => @labelling_fit X). Qed.
(** ChainCRF with its own inference (inference_method 'max-product') *)
Theorem C65_chain_n_slack :
  forall (g : graph_crf) (cw : list Qc) (solve : qp_solver) (prm : ns_params) (Xs : list mat) (Ys : list (list nat))
         (old : option ns_attrs) (st : ns_state (list nat)) (curve primal : list Qc) (reason : ns_stop),
    (0 < g_states g)%nat -> length cw = g_states g -> (forall s, (s < g_states g)%nat -> 0 < get1 cw s) ->
    length Xs = length Ys ->
    (forall x y, In (x, y) (combine Xs Ys) ->
       mat_ok x /\ mcols x = g_features g /\ (0 < mrows x)%nat /\ Energy.labelling (mrows x) (g_states g) y) ->
    0 <= ns_C prm -> ns_window prm = O -> ns_neg prm = None -> ns_tol prm <= 0 -> qp_exact solve ->
    answers_all solve (ns_C prm) (length Xs) (chain_task g cw) (combine Xs Ys) ->
    (list_sum (map (fun x => g_states g ^ mrows x) Xs) < ns_max_iter prm)%nat ->
    ns_fit labels_eqb solve prm (chain_smodel g cw) None Xs Ys None old = Ok (st, curve, primal, reason) ->
    reason = NoNewConstraint /\
    within (chain_task g cw) (g_size g) (ns_C prm) (combine Xs Ys) (st_w st) (n_gap (ns_C prm) (length Xs)).
Proof.
  intros g cw solve prm Xs Ys old st curve primal reason HK Hc Hp HXY HS.
  exact (labelling_fit (chain_task g cw) mrows (g_states g) (get1 cw) (g_size g) (chain_smodel g cw) solve prm Xs Ys old st curve primal reason
    (fun x y H => H) (fun y y' => eq_refl) Hp HXY eq_refl (chain_oracle g cw _ HK Hc HS)).
Qed.
Theorem C65_grid_n_slack :
  forall (inf : solver) (g : grid_crf) (cw : list Qc) (solve : qp_solver) (prm : ns_params) (Xs : list grid_x) (Ys : list (list nat))
         (old : option ns_attrs) (st : ns_state (list nat)) (curve primal : list Qc) (reason : ns_stop),
    (0 < gr_features g)%nat -> (0 < gr_states g)%nat -> length cw = gr_states g -> (forall s, (s < gr_states g)%nat -> 0 < get1 cw s) ->
    length Xs = length Ys ->
    (forall x y, In (x, y) (combine Xs Ys) -> length (gr_data x) = (gr_h x * gr_w x * gr_features g)%nat /\
       Energy.labelling (gr_h x * gr_w x) (gr_states g) y /\
       exists es, make_grid_edges (gr_h x) (gr_w x) (gr_neighborhood g) = Ok es /\ exact_solver_on inf (gr_h x * gr_w x) es) ->
    0 <= ns_C prm -> ns_window prm = O -> ns_neg prm = None -> ns_tol prm <= 0 -> qp_exact solve ->
    answers_all solve (ns_C prm) (length Xs) (grid_task g cw) (combine Xs Ys) ->
    (list_sum (map (fun x => gr_states g ^ (gr_h x * gr_w x)) Xs) < ns_max_iter prm)%nat ->
    ns_fit labels_eqb solve prm (grid_smodel inf g cw) None Xs Ys None old = Ok (st, curve, primal, reason) ->
    reason = NoNewConstraint /\
    within (grid_task g cw) (g_size (grid_gcrf g)) (ns_C prm) (combine Xs Ys) (st_w st) (n_gap (ns_C prm) (length Xs)).
Proof.
  intros inf g cw solve prm Xs Ys old st curve primal reason HF HK Hc Hp HXY HS.
  exact (labelling_fit (grid_task g cw) (fun x => gr_h x * gr_w x)%nat (gr_states g) (get1 cw) (g_size (grid_gcrf g)) (grid_smodel inf g cw) solve prm Xs Ys old st curve primal reason
    (fun x y H => H) (fun y y' => eq_refl) Hp HXY eq_refl (grid_oracle inf g cw _ HF HK Hc HS)).
Qed.
Theorem C65_directional_n_slack :
  forall (inf : solver) (K F : nat) (cw : list Qc) (solve : qp_solver) (prm : ns_params) (Xs : list grid_x) (Ys : list (list nat))
         (old : option ns_attrs) (st : ns_state (list nat)) (curve primal : list Qc) (reason : ns_stop),
    let g := GridCRF K F 4 in
    (0 < F)%nat -> (0 < K)%nat -> length cw = K -> (forall s, (s < K)%nat -> 0 < get1 cw s) ->
    length Xs = length Ys ->
    (forall x y, In (x, y) (combine Xs Ys) -> length (gr_data x) = (gr_h x * gr_w x * F)%nat /\ Energy.labelling (gr_h x * gr_w x) K y /\
       exists es, make_grid_edges (gr_h x) (gr_w x) 4 = Ok es /\ exact_on_tables inf (gr_h x * gr_w x) es) ->
    0 <= ns_C prm -> ns_window prm = O -> ns_neg prm = None -> ns_tol prm <= 0 -> qp_exact solve ->
    answers_all solve (ns_C prm) (length Xs) (dir_task g cw) (combine Xs Ys) ->
    (list_sum (map (fun x => K ^ (gr_h x * gr_w x)) Xs) < ns_max_iter prm)%nat ->
    ns_fit labels_eqb solve prm (dir_smodel inf g cw) None Xs Ys None old = Ok (st, curve, primal, reason) ->
    reason = NoNewConstraint /\
    within (dir_task g cw) (dir_size g) (ns_C prm) (combine Xs Ys) (st_w st) (n_gap (ns_C prm) (length Xs)).
Proof.
  intros inf K F cw solve prm Xs Ys old st curve primal reason g HF HK Hc Hp HXY HS.
  exact (labelling_fit (dir_task g cw) (fun x => gr_h x * gr_w x)%nat K (get1 cw) (dir_size g) (dir_smodel inf g cw) solve prm Xs Ys old st curve primal reason
    (fun x y H => H) (fun y y' => eq_refl) Hp HXY eq_refl (dir_oracle inf K F cw _ HF HK Hc HS)).
Qed.
(** MultiLabelClf; every label counts one *)
Theorem C65_multilabel_n_slack :
  forall (inf : solver) (m : ml_clf) (solve : qp_solver) (prm : ns_params) (Xs : list (list Qc)) (Ys : list (list nat))
         (old : option ns_attrs) (st : ns_state (list nat)) (curve primal : list Qc) (reason : ns_stop),
    graph_edges (ml_labels m) (ml_edges m) -> (2 <= ml_labels m)%nat -> exact_on_tables inf (ml_labels m) (ml_edges m) ->
    length Xs = length Ys ->
    (forall x y, In (x, y) (combine Xs Ys) -> length x = ml_features m /\ Energy.labelling (ml_labels m) 2 y) ->
    0 <= ns_C prm -> ns_window prm = O -> ns_neg prm = None -> ns_tol prm <= 0 -> qp_exact solve ->
    answers_all solve (ns_C prm) (length Xs) (ml_task m) (combine Xs Ys) ->
    (list_sum (map (fun _ => 2 ^ ml_labels m) Xs) < ns_max_iter prm)%nat ->
    ns_fit labels_eqb solve prm (ml_smodel inf m) None Xs Ys None old = Ok (st, curve, primal, reason) ->
    reason = NoNewConstraint /\
    within (ml_task m) (ml_size m) (ns_C prm) (combine Xs Ys) (st_w st) (n_gap (ns_C prm) (length Xs)).
Proof.
  intros inf m solve prm Xs Ys old st curve primal reason HE HL HV HXY HS.
  exact (labelling_fit (ml_task m) (fun _ => ml_labels m) 2 (fun _ => 1) (ml_size m) (ml_smodel inf m) solve prm Xs Ys old st curve primal reason
    (fun x y H => H) (fun y y' => eq_refl) (fun _ _ => eq_refl) HXY eq_refl (ml_oracle inf m _ HE HL HV HS)).
Qed.

(** ** OneSlackSSVM *)
(** ChainCRF: [R2] bounds the squared feature differences, [L] the losses. *)
Theorem C65_chain_one_slack :
  forall (g : graph_crf) (cw : list Qc) (ceq : list nat -> list nat -> res bool) (solve : qp_solver) (prm : os_params)
         (Xs : list mat) (Ys : list (list nat)) (R2 L : Qc) (st : os_state (list nat)) (reason : os_stop),
    let K := o_C prm * ofN (length Xs) in
    (0 < g_states g)%nat -> length cw = g_states g ->
    (0 < length Xs)%nat -> length Xs = length Ys ->
    (forall x y, In (x, y) (combine Xs Ys) ->
       mat_ok x /\ mcols x = g_features g /\ (0 < mrows x)%nat /\ Energy.labelling (mrows x) (g_states g) y) ->
    0 < o_C prm -> 0 < o_tol prm -> 0 < R2 -> o_window prm = O -> o_neg prm = None -> qp_exact solve ->
    (forall p y', In p (combine Xs Ys) -> t_label (chain_task g cw) (fst p) y' ->
       normsq (vsub (t_feat (chain_task g cw) (fst p) (snd p)) (t_feat (chain_task g cw) (fst p) y')) <= R2 /\
       t_loss (chain_task g cw) (snd p) y' <= L) ->
    K * L + qp_reg * (K * K) / (1 + 1) < ofN (o_max_iter prm - 1) * (gain K (o_tol prm) R2 - qp_reg * (K * K) / (1 + 1)) ->
    os_fit ceq solve prm (base_bmodel (chain_smodel g cw)) None Xs Ys Cold = Ok (st, reason) ->
    reason = OSNoConstraint /\
    within (chain_task g cw) (g_size g) (o_C prm) (combine Xs Ys) (o_w st) (K * o_tol prm + qp_reg * (K * K)).
Proof.
  intros g cw ceq solve prm Xs Ys R2 L st reason K HK Hc HN HXY HS.
  exact (one_fit (chain_task g cw) (g_size g) ceq solve prm (chain_smodel g cw) Xs Ys R2 L st reason HN HXY eq_refl eq_refl (chain_oracle g cw _ HK Hc HS)).
Qed.

(** ** the hypotheses are met *)
(** one chain of two nodes: the solver answers all fifteen working sets *)
Example C65_chain_met :
  length ex26_cw = g_states ex26_g /\ (forall s, (s < g_states ex26_g)%nat -> 0 < get1 ex26_cw s) /\
  (forall x y, In (x, y) (combine [ex26_x] [ex26_y]) ->
     mat_ok x /\ mcols x = g_features ex26_g /\ (0 < mrows x)%nat /\ Energy.labelling (mrows x) (g_states ex26_g) y) /\
  qp_exact ex26_solver /\ answers_all ex26_solver (ns_C ex26_prm) (length [ex26_x]) (chain_task ex26_g ex26_cw) (combine [ex26_x] [ex26_y]) /\
  ns_window ex26_prm = O /\ ns_neg ex26_prm = None /\ ns_tol ex26_prm <= 0 /\ 0 <= ns_C ex26_prm /\
  (list_sum (map (fun x => g_states ex26_g ^ mrows x) [ex26_x]) < ns_max_iter ex26_prm)%nat.
Proof.
  split; [reflexivity|]. split. { intros [|[|s]] H; [reflexivity|reflexivity|cbn in H; lia]. }
  split. { intros x y [H|[]]. injection H as <- <-. split; [apply mat_okb_ok; reflexivity|]. split; [reflexivity|]. split; [cbn; lia|]. split; [reflexivity|repeat constructor]. }
  split; [apply TableSolver.table_exact|]. split; [exact ex26_answers|]. split; [reflexivity|]. split; [reflexivity|]. split; [discriminate|]. split; [discriminate|]. cbn. lia.
Qed.
Example C65_chain_computed :
  match ns_fit labels_eqb ex26_solver ex26_prm (chain_smodel ex26_g ex26_cw) None [ex26_x] [ex26_y] None None with
  | Ok (st, curve, primal, NoNewConstraint) =>
      map this (st_w st) = [(-1) # 8; 1 # 8; 0 # 1; 0 # 1; 0 # 1]%Q /\ map this curve = [7 # 64; 7 # 64; 7 # 64]%Q
  | _ => False
  end.
Proof. vm_compute. auto. Qed.
(** a grid of one row and two pixels, max-product inference *)
Example C65_grid_met :
  let g := GridCRF 2 1 4 in let x := GridX 1 2 1 [1; - (1)] in
  make_grid_edges (gr_h x) (gr_w x) 4 = Ok [(0, 1)]%nat /\ exact_solver_on ex24_solve (gr_h x * gr_w x) [(0, 1)]%nat /\
  exact_on_tables ex24_solve (gr_h x * gr_w x) [(0, 1)]%nat /\ length (gr_data x) = (gr_h x * gr_w x * gr_features g)%nat /\
  sm_laug (grid_smodel ex24_solve g [1; 1]) x [1; 0]%nat (vzero (g_size (grid_gcrf g))) = Ok [0; 1]%nat /\
  sm_laug (dir_smodel ex24_solve g [1; 1]) x [1; 0]%nat (vzero (dir_size g)) = Ok [0; 1]%nat.
Proof.
  cbv zeta. split; [reflexivity|]. split; [apply exact_tables_shared, ex24_exact_tables|]. split; [exact ex24_exact_tables|].
  split; [reflexivity|]. split; vm_compute; reflexivity.
Qed.
(** one edge with a symmetric and an antisymmetric feature; two labels *)
Example C65_edge_feature_met :
  let g := EFCRF 2 1 2 [0%nat] [1%nat] in
  let x := EFX (Mat 2 1 [[1]; [- (1)]]) [(0, 1)]%nat (Mat 1 2 [[1; 1]]) in
  let w := [0; 0] ++ [1; 0; 0; 1] ++ [0; 1; - (1); 0] in
  ef_check_declared g = Ok tt /\ graph_edges (mrows (ex_features x)) (ex_edges x) /\
  exact_on_tables ex24_solve (mrows (ex_features x)) (ex_edges x) /\ length w = ef_size g /\
  respects_symmetry (ef_states g) (ef_features g) (ef_sym g) (ef_anti g) w /\
  sm_laug (ef_smodel ex24_solve g [1; 1]) x [1; 0]%nat w = Ok [0; 1]%nat.
Proof.
  cbv zeta. split; [reflexivity|]. split. { repeat constructor. } split; [exact ex24_exact_tables|]. split; [reflexivity|]. split; [|vm_compute; reflexivity].
  split; intros i s t [<-|[]] Hs Ht; cbn in Hs, Ht;
    (destruct s as [|[|s]]; [| |lia]; (destruct t as [|[|t]]; [| |lia]); apply Qc_is_canon; vm_compute; reflexivity).
Qed.
Example C65_multilabel_met :
  let m := ML 2 1 [(0, 1)]%nat in
  graph_edges (ml_labels m) (ml_edges m) /\ exact_on_tables ex24_solve (ml_labels m) (ml_edges m) /\
  sm_laug (ml_smodel ex24_solve m) [1] [1; 0]%nat (vzero (ml_size m)) = Ok [0; 1]%nat.
Proof. cbv zeta. split. { repeat constructor. } split; [exact ex24_exact_tables|]. vm_compute. reflexivity. Qed.

Print Assumptions C65_gridcrf_implements_task.
Print Assumptions C65_directional_implements_task.
Print Assumptions C65_edge_feature_implements_task.
Print Assumptions C65_multilabel_implements_task.
Print Assumptions C65_n_slack_labellings.
Print Assumptions C65_chain_n_slack.
Print Assumptions C65_grid_n_slack.
Print Assumptions C65_directional_n_slack.
Print Assumptions C65_multilabel_n_slack.
Print Assumptions C65_chain_one_slack.

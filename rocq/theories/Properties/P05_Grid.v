(** C12, C13, C14 and the EdgeFeatureGraphCRF parts of C02, C03: grids and edge features. *)
From Verif Require Import Model.Grid Spec.GridSpec Spec.EdgeSpec Spec.LossSpec Spec.SolverSpec Model.MaxProd
  Proofs.Arrays Proofs.EdgeFeatureProofs Proofs.EdgeFeatureProofs2 Proofs.GridProofs Proofs.GridProofs2
  Proofs.MaxProdProofs.

(** C12. Every pair of adjacent pixels exactly once (in one of its two orders), nothing else. *)
Theorem C12_grid_edges_4 :
  forall (h w : nat), exists es, make_grid_edges h w 4 = Ok es /\
    NoDup es /\ graph_edges (h * w) es /\
    length es = (h * (w - 1) + (h - 1) * w)%nat /\
    (forall a b, (a < h * w)%nat -> (b < h * w)%nat -> adjacent4 w a b <-> In (a, b) es \/ In (b, a) es) /\
    (forall a b, In (a, b) es -> ~ In (b, a) es).
Proof. exact grid_edges_4. Qed.

Theorem C12_grid_edges_8 :
  forall (h w : nat), exists es, make_grid_edges h w 8 = Ok es /\
    NoDup es /\ graph_edges (h * w) es /\
    length es = (h * (w - 1) + (h - 1) * w + 2 * ((h - 1) * (w - 1)))%nat /\
    (forall a b, (a < h * w)%nat -> (b < h * w)%nat -> adjacent8 w a b <-> In (a, b) es \/ In (b, a) es) /\
    (forall a b, In (a, b) es -> ~ In (b, a) es).
Proof. exact grid_edges_8. Qed.

Theorem C12_other_neighborhoods_rejected :
  forall (h w nb : nat), nb <> 4%nat -> nb <> 8%nat ->
    make_grid_edges h w nb = Err ValueError /\ make_grid_edge_lists h w nb = Err ValueError.
Proof. exact grid_edges_other. Qed.

(** return_lists=True: concatenating the lists gives the edges *)
Theorem C12_lists_concatenate :
  forall (h w nb : nat) (l : list (list (nat * nat))),
    make_grid_edge_lists h w nb = Ok l -> make_grid_edges h w nb = Ok (concat l).
Proof. exact (fun h w nb l E => f_equal (fun r => bind r (fun l => Ok (concat l))) E). Qed.

(** GridCRF: dot(w, joint_feature(x, y)) is the sum of the pixels' unary scores and the
    adjacent pairs' (symmetric) pairwise scores, and has the announced length. *)
Theorem C12_gridcrf_score :
  forall (g : grid_crf) (x : grid_x) (w : list Qc) (y : list nat) (es : list (nat * nat)),
    make_grid_edges (gr_h x) (gr_w x) (gr_neighborhood g) = Ok es ->
    (0 < gr_features g)%nat -> length (gr_data x) = (gr_h x * gr_w x * gr_features g)%nat ->
    length w = (gr_states g * gr_features g + gr_states g * (gr_states g + 1) / 2)%nat ->
    labelling (gr_h x * gr_w x) (gr_states g) y ->
    exists psi, grid_joint_feature g x (Discrete y) = Ok psi /\ length psi = length w /\
      dot w psi =
        score (gr_h x * gr_w x) es
          (fun i s => unary_score (gr_features g) w (fun f => get1 (gr_data x) (i * gr_features g + f)) s)
          (fun _ s t => get1 w (gr_states g * gr_features g + tri_index s t)) (lab y).
Proof. exact gridcrf_score. Qed.

(** An image with another number of channels is rejected (not by _check_size_x, whose
    reshape hides the mismatch, but by the reshape of y). *)
Theorem C12_gridcrf_wrong_features_rejected :
  forall (g : grid_crf) (x : grid_x) (y : list nat),
    length (gr_data x) = (gr_h x * gr_w x * gr_c x)%nat -> (0 < gr_h x * gr_w x)%nat ->
    gr_c x <> gr_features g -> length y = (gr_h x * gr_w x)%nat ->
    grid_joint_feature g x (Discrete y) = Err ValueError.
Proof. exact gridcrf_wrong_features. Qed.

(** C13, neighborhood=4: the two feature columns mark horizontal and vertical edges, and
    scores, potentials and sizes agree. *)
Theorem C13_edge_features_mark_direction :
  forall (h w : nat) (es : list (nat * nat)) (l : list (list (nat * nat))),
    make_grid_edges h w 4 = Ok es -> make_grid_edge_lists h w 4 = Ok l ->
    exists ef, edge_list_to_features l = Ok ef /\ mat_ok ef /\ mrows ef = length es /\ mcols ef = 2%nat /\
      forall e, (e < length es)%nat ->
        let '(a, b) := nth e es (0, 0)%nat in
        (row_dist w a b = 0%nat /\ col_dist w a b = 1%nat /\ mget ef e 0 = 1 /\ mget ef e 1 = 0) \/
        (row_dist w a b = 1%nat /\ col_dist w a b = 0%nat /\ mget ef e 0 = 0 /\ mget ef e 1 = 1).
Proof. exact edge_direction_features. Qed.

Theorem C13_directional_4_score :
  forall (S F : nat) (x : grid_x) (w : list Qc) (y : list nat) (es : list (nat * nat)),
    let g := GridCRF S F 4 in
    make_grid_edges (gr_h x) (gr_w x) 4 = Ok es ->
    (0 < F)%nat -> length (gr_data x) = (gr_h x * gr_w x * F)%nat ->
    length w = dir_size g -> labelling (gr_h x * gr_w x) S y ->
    exists U P psi,
      dir_unary g x w = Ok U /\ dir_pairwise g x w = Ok P /\
      dir_joint_feature g x (EDiscrete y) = Ok psi /\ length psi = dir_size g /\
      compute_energy U P es y = Ok (dot w psi) /\
      dot w psi =
        score (gr_h x * gr_w x) es
          (fun i s => unary_score F w (fun f => get1 (gr_data x) (i * F + f)) s)
          (fun e s t => edge_weight S F w
             (if (row_dist (gr_w x) (fst (nth e es (0, 0)%nat)) (snd (nth e es (0, 0)%nat)) =? 0)%nat then 0 else 1) s t)
          (lab y).
Proof. exact directional_4_score. Qed.

(** C13, neighborhood=8: on every grid the joint feature has the wrong length, and every
    inference call fails with ValueError whatever the weights and the solver. *)
Theorem C13_directional_8_wrong_length :
  forall (S F : nat) (x : grid_x) (y : list nat),
    let g := GridCRF S F 8 in
    (0 < F)%nat -> length (gr_data x) = (gr_h x * gr_w x * F)%nat -> (0 < S)%nat ->
    labelling (gr_h x * gr_w x) S y ->
    exists psi, dir_joint_feature g x (EDiscrete y) = Ok psi /\
      length psi = (S * F + 2 * (S * S))%nat /\ length psi <> dir_size g.
Proof. exact directional_8_joint_feature. Qed.

Theorem C13_directional_8_inference_always_fails :
  forall (solve : solver) (S F : nat) (x : grid_x) (w : list Qc),
    let g := GridCRF S F 8 in
    dir_pairwise g x w = Err ValueError /\ dir_inference solve g x w = Err ValueError.
Proof. exact directional_8_inference. Qed.

(** C14. For every weight vector, the joint-feature score is the score under the weights with
    the declared blocks replaced by their (anti)symmetric parts. *)
Theorem C14_joint_feature_score :
  forall (g : ef_crf) (x : ef_x) (w : list Qc) (y : list nat),
    ef_check_declared g = Ok tt ->
    mcols (ex_features x) = ef_features g -> mcols (ex_edge_features x) = ef_edge_features g ->
    mrows (ex_edge_features x) = length (ex_edges x) ->
    graph_edges (mrows (ex_features x)) (ex_edges x) ->
    length w = ef_size g -> labelling (mrows (ex_features x)) (ef_states g) y ->
    exists psi, ef_joint_feature g x (EDiscrete y) = Ok psi /\ length psi = ef_size g /\
      dot w psi = score (mrows (ex_features x)) (ex_edges x)
        (fun i s => unary_score (ef_features g) w (mget (ex_features x) i) s)
        (fun e s t => sumn (ef_edge_features g) (fun f => mget (ex_edge_features x) e f *
           effective_weight (ef_states g) (ef_features g) (ef_sym g) (ef_anti g) w f s t)) (lab y).
Proof. exact ef_score_general. Qed.

(** C14. For weights respecting the declared symmetries (every weight vector when none are
    declared) it is the energy inference maximises. *)
Theorem C14_score_linear :
  forall (g : ef_crf) (x : ef_x) (w : list Qc) (y : list nat),
    ef_check_declared g = Ok tt -> (0 < ef_edge_features g)%nat ->
    mcols (ex_features x) = ef_features g -> mcols (ex_edge_features x) = ef_edge_features g ->
    mrows (ex_edge_features x) = length (ex_edges x) ->
    graph_edges (mrows (ex_features x)) (ex_edges x) ->
    length w = ef_size g -> labelling (mrows (ex_features x)) (ef_states g) y ->
    respects_symmetry (ef_states g) (ef_features g) (ef_sym g) (ef_anti g) w ->
    exists U P psi,
      ef_unary g x w = Ok U /\ ef_pairwise g x w = Ok P /\ ef_joint_feature g x (EDiscrete y) = Ok psi /\
      length psi = ef_size g /\
      compute_energy U P (ex_edges x) y = Ok (dot w psi) /\
      dot w psi = score (mrows (ex_features x)) (ex_edges x)
        (fun i s => unary_score (ef_features g) w (mget (ex_features x) i) s)
        (fun e s t => edge_score (ef_edge_features g) (ef_states g) (ef_features g) w (mget (ex_edge_features x) e) s t) (lab y).
Proof. exact ef_score_linear. Qed.

Theorem C14_relaxed_score_linear :
  forall (g : ef_crf) (x : ef_x) (w um : list Qc) (pw : mat),
    ef_check_declared g = Ok tt -> (0 < ef_edge_features g)%nat ->
    mcols (ex_features x) = ef_features g -> mcols (ex_edge_features x) = ef_edge_features g ->
    mrows (ex_edge_features x) = length (ex_edges x) ->
    graph_edges (mrows (ex_features x)) (ex_edges x) ->
    length w = ef_size g -> length um = (mrows (ex_features x) * ef_states g)%nat ->
    mrows pw = length (ex_edges x) -> mcols pw = (ef_states g * ef_states g)%nat ->
    respects_symmetry (ef_states g) (ef_features g) (ef_sym g) (ef_anti g) w ->
    exists U n0 n1 n2 d psi,
      ef_unary g x w = Ok U /\ ef_pairwise g x w = Ok (Pw3 n0 n1 n2 d) /\
      ef_joint_feature g x (ERelaxed um pw) = Ok psi /\ length psi = ef_size g /\
      dot w psi =
        sumn (mrows (ex_features x)) (fun i => sumn (ef_states g) (fun s => get1 um (i * ef_states g + s) * mget U i s)) +
        sumn (length (ex_edges x)) (fun e => sumn (ef_states g) (fun s => sumn (ef_states g) (fun t =>
          mget pw e (s * ef_states g + t) * get2 (nth e d []) s t))).
Proof. exact ef_relaxed_linear. Qed.

(** C14. Linear combinations of joint features respect the declared symmetries. *)
Theorem C14_learned_weights_respect_symmetry :
  forall (g : ef_crf) (samples : list (Qc * (ef_x * ef_label * list Qc))),
    ef_check_declared g = Ok tt ->
    (forall c x y psi, In (c, (x, y, psi)) samples ->
       ef_joint_feature g x y = Ok psi /\
       match y with ERelaxed _ pw => mcols pw = (ef_states g * ef_states g)%nat | EDiscrete _ => True end) ->
    length (lincomb (ef_size g) (map (fun p => (fst p, snd (snd p))) samples)) = ef_size g /\
    respects_symmetry (ef_states g) (ef_features g) (ef_sym g) (ef_anti g)
      (lincomb (ef_size g) (map (fun p => (fst p, snd (snd p))) samples)).
Proof. exact ef_span. Qed.

(** C14. For other weights the two disagree. *)
Theorem C14_arbitrary_weights_refuted :
  exists (g : ef_crf) (x : ef_x) (w : list Qc) (y : list nat) U P psi,
    ef_check_declared g = Ok tt /\ length w = ef_size g /\
    labelling (mrows (ex_features x)) (ef_states g) y /\
    ef_unary g x w = Ok U /\ ef_pairwise g x w = Ok P /\ ef_joint_feature g x (EDiscrete y) = Ok psi /\
    compute_energy U P (ex_edges x) y <> Ok (dot w psi).
Proof. exact ef_arbitrary_weights_refuted. Qed.

Theorem C14_bad_declarations_rejected :
  forall (g : ef_crf),
    (ef_check_declared g = Ok tt <->
      ((forall i, In i (ef_sym g) \/ In i (ef_anti g) -> (i < ef_edge_features g)%nat) /\
       (forall i, In i (ef_sym g) -> ~ In i (ef_anti g)))) /\
    (ef_check_declared g <> Ok tt -> ef_check_declared g = Err ValueError).
Proof. exact ef_check_declared_spec. Qed.

(** C02 for EdgeFeatureGraphCRF: the size checks (the length itself is in C14_joint_feature_score). *)
Theorem C02_edgefeature_size_checks :
  forall (g : ef_crf) (x : ef_x) (w : list Qc) (y : ef_label),
    (ef_edge_features g = 0%nat -> ef_pairwise g x w = Err ValueError) /\
    (length w <> ef_size g -> ef_unary g x w = Err ValueError /\ ef_pairwise g x w = Err ValueError) /\
    ((mcols (ex_features x) <> ef_features g \/ mrows (ex_edge_features x) <> length (ex_edges x) \/
      mcols (ex_edge_features x) <> ef_edge_features g) ->
       ef_joint_feature g x y = Err ValueError /\ ef_unary g x w = Err ValueError /\ ef_pairwise g x w = Err ValueError).
Proof. exact ef_rejects. Qed.

(** C03 for EdgeFeatureGraphCRF. *)
Theorem C03_edgefeature_loss_augmented_inference_exact :
  forall (solve : solver) (g : ef_crf) (cw : list Qc) (x : ef_x) (y : list nat) (w : list Qc),
    exact_on_tables solve (mrows (ex_features x)) (ex_edges x) ->
    ef_check_declared g = Ok tt -> (0 < ef_edge_features g)%nat -> (0 < ef_states g)%nat ->
    mcols (ex_features x) = ef_features g -> mcols (ex_edge_features x) = ef_edge_features g ->
    mrows (ex_edge_features x) = length (ex_edges x) ->
    graph_edges (mrows (ex_features x)) (ex_edges x) ->
    length w = ef_size g -> length cw = ef_states g ->
    respects_symmetry (ef_states g) (ef_features g) (ef_sym g) (ef_anti g) w ->
    labelling (mrows (ex_features x)) (ef_states g) y ->
    exists yh psi l,
      ef_loss_augmented_inference solve g cw x y w = Ok yh /\
      labelling (mrows (ex_features x)) (ef_states g) yh /\
      ef_joint_feature g x (EDiscrete yh) = Ok psi /\ loss (Some cw) y yh = Ok l /\
      forall y' psi' l', labelling (mrows (ex_features x)) (ef_states g) y' ->
        ef_joint_feature g x (EDiscrete y') = Ok psi' -> loss (Some cw) y y' = Ok l' ->
        dot w psi' + l' <= dot w psi + l.
Proof. exact ef_loss_augmented_exact. Qed.

(** C14. Without declarations every weight vector respects the (empty) symmetries. *)
Theorem C14_no_declarations :
  forall (S F : nat) (w : list Qc), respects_symmetry S F [] [] w.
Proof. exact (fun S F w => conj (fun f s t (H : In f []) _ _ => match H with end) (fun f s t (H : In f []) _ _ => match H with end)). Qed.

(** ** The hypotheses are met *)
Definition ex5_g := EFCRF 2 1 2 [0%nat] [1%nat].
Definition ex5_x := EFX (Mat 3 1 [[1]; [0]; [1]]) (chain_edges 3) (Mat 2 2 [[1; 1]; [Q2Qc (1 # 2); 1]]).
Definition ex5_y := [0; 1; 1]%nat.
Definition ex5_w := [1; 0;  1; Q2Qc 2; Q2Qc 2; 0;  0; 1; - (1); 0].
Example C14_hypotheses_met :
  ef_check_declared ex5_g = Ok tt /\ (0 < ef_edge_features ex5_g)%nat /\ (0 < ef_states ex5_g)%nat /\
  mcols (ex_features ex5_x) = ef_features ex5_g /\ mcols (ex_edge_features ex5_x) = ef_edge_features ex5_g /\
  mrows (ex_edge_features ex5_x) = length (ex_edges ex5_x) /\
  graph_edges (mrows (ex_features ex5_x)) (ex_edges ex5_x) /\
  length ex5_w = ef_size ex5_g /\ labelling (mrows (ex_features ex5_x)) (ef_states ex5_g) ex5_y /\
  respects_symmetry (ef_states ex5_g) (ef_features ex5_g) (ef_sym ex5_g) (ef_anti ex5_g) ex5_w /\
  exact_on_tables (fun U p e => inference_max_product U p e 30 (Q2Qc (1 # 2)) 0) 3 (chain_edges 3).
Proof.
  do 6 (split; [repeat constructor|]). split; [repeat constructor|]. split; [reflexivity|]. split; [repeat constructor|]. split.
  - split; intros f s t [<-|[]] Hs Ht; destruct s as [|[|s]]; try (exfalso; simpl in Hs; lia);
      destruct t as [|[|t]]; try (exfalso; simpl in Ht; lia); apply Qc_is_canon; reflexivity.
  - intros U p k HU Hr Hc Hp Hk. apply max_product_chain; auto; lia.
Qed.
Example C14_value : match ef_joint_feature ex5_g ex5_x (EDiscrete ex5_y) with
  | Ok psi => this (dot ex5_w psi) = 4%Q | Err _ => False end.
Proof. vm_compute. reflexivity. Qed.
Example C14_span_met : forall c x y psi,
  In (c, (x, y, psi)) [(Q2Qc 2, (ex5_x, EDiscrete ex5_y, match ef_joint_feature ex5_g ex5_x (EDiscrete ex5_y) with Ok p => p | Err _ => [] end))] ->
  ef_joint_feature ex5_g x y = Ok psi /\
  match y with ERelaxed _ pw => mcols pw = (ef_states ex5_g * ef_states ex5_g)%nat | EDiscrete _ => True end.
Proof. intros c x y psi [E|[]]. injection E as <- <- <- <-. split; [reflexivity|exact I]. Qed.
Example C14_relaxed_met : length (repeat (Q2Qc (1 # 2)) 6) = (mrows (ex_features ex5_x) * ef_states ex5_g)%nat /\
  mrows (mat_zeros 2 4) = length (ex_edges ex5_x) /\ mcols (mat_zeros 2 4) = (ef_states ex5_g * ef_states ex5_g)%nat.
Proof. repeat split. Qed.
Example C12_value : make_grid_edges 2 3 4 = Ok [(0,1); (1,2); (3,4); (4,5); (0,3); (1,4); (2,5)]%nat.
Proof. reflexivity. Qed.
Example C12_value_8 : make_grid_edges 2 2 8 = Ok [(0,1); (2,3); (0,2); (1,3); (2,1); (0,3)]%nat.
Proof. reflexivity. Qed.
Definition ex5_gx := GridX 2 2 1 [1; 0; 1; 0].
Example C13_hypotheses_met :
  (exists es, make_grid_edges (gr_h ex5_gx) (gr_w ex5_gx) 4 = Ok es) /\
  length (gr_data ex5_gx) = (gr_h ex5_gx * gr_w ex5_gx * 1)%nat /\
  length (repeat 1 10) = dir_size (GridCRF 2 1 4) /\ labelling (gr_h ex5_gx * gr_w ex5_gx) 2 [0; 1; 1; 0]%nat.
Proof. split; [eexists; reflexivity|]. split; [reflexivity|]. split; [reflexivity|]. repeat constructor. Qed.
Example C12_gridcrf_met : length (repeat 1 5) = (gr_states (GridCRF 2 1 8) * gr_features (GridCRF 2 1 8) +
   gr_states (GridCRF 2 1 8) * (gr_states (GridCRF 2 1 8) + 1) / 2)%nat /\ gr_c (GridX 1 2 2 [1; 0; 1; 0]) <> gr_features (GridCRF 2 1 8).
Proof. split; [reflexivity|discriminate]. Qed.

Print Assumptions C12_grid_edges_4.
Print Assumptions C12_grid_edges_8.
Print Assumptions C12_other_neighborhoods_rejected.
Print Assumptions C12_lists_concatenate.
Print Assumptions C12_gridcrf_score.
Print Assumptions C12_gridcrf_wrong_features_rejected.
Print Assumptions C13_edge_features_mark_direction.
Print Assumptions C13_directional_4_score.
Print Assumptions C13_directional_8_wrong_length.
Print Assumptions C13_directional_8_inference_always_fails.
Print Assumptions C14_joint_feature_score.
Print Assumptions C14_score_linear.
Print Assumptions C14_relaxed_score_linear.
Print Assumptions C14_learned_weights_respect_symmetry.
Print Assumptions C14_arbitrary_weights_refuted.
Print Assumptions C14_bad_declarations_rejected.
Print Assumptions C14_no_declarations.
Print Assumptions C02_edgefeature_size_checks.
Print Assumptions C03_edgefeature_loss_augmented_inference_exact.

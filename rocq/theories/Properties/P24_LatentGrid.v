(** Properties of LatentGridCRF and LatentDirectionalGridCRF (models/latent_grid_crf.py): C63. *)
From Coq Require Import ZArith.
From Verif Require Import Model.LatentGrid Spec.GraphSpec Spec.SolverSpec Spec.EdgeSpec Spec.GridSpec
  Proofs.LatentProofs Proofs.LatentProofs4 Proofs.LatentSSVMProofs3 Proofs.LatentGridProofs Proofs.LatentGridProofs2 Proofs.LatentGridProofs3
  Spec.LatentSpec Spec.LatentGridSpec.

(** * LatentGridCRF *)
(** The score is that of latent states on the pixels and on pairs of neighbours. *)
Theorem C63_grid_score : forall nl nf p nb t x es w h, ltg_setup nl nf p nb = Ok t -> (0 < nf)%nat ->
  length (gr_data x) = (gr_h x * gr_w x * nf)%nat -> make_grid_edges (gr_h x) (gr_w x) nb = Ok es ->
  length w = g_size (lg_graph (tg_lg t)) -> labelling (gr_h x * gr_w x) (lg_states (tg_lg t)) h ->
  dot w (t_feat (ltg_task t) x h) =
    score (gr_h x * gr_w x) es (fun i s => unary_score nf w (fun f => get1 (gr_data x) (i * nf + f)) s)
      (fun _ s u => get1 w (lg_states (tg_lg t) * nf + tri_index s u)) (lab h).
Proof. exact ltg_score. Qed.
(** The model object implements this task: all latent labellings, these features, the number of pixels with another label. *)
Theorem C63_grid_implements : forall nl nf p nb t solve x es h, ltg_setup nl nf p nb = Ok t -> (0 < nf)%nat ->
  length (gr_data x) = (gr_h x * gr_w x * nf)%nat -> make_grid_edges (gr_h x) (gr_w x) nb = Ok es ->
  labelling (gr_h x * gr_w x) (lg_states (tg_lg t)) h ->
  implements (ltg_smodel solve t) (ltg_task t) (g_size (lg_graph (tg_lg t))) x h.
Proof.
  intros nl nf p nb t solve x es h ET HF HL HE Hh. destruct (ltg_setup_inv _ _ _ _ _ ET) as [HG [E1 [E2 E3]]]. subst.
  exact (ltg_implements t x es HG HF HL HE solve h Hh).
Qed.
(** With an exact solver both kinds of inference are exact. *)
Theorem C63_grid_exact : forall nl nf p nb t solve x es w, ltg_setup nl nf p nb = Ok t -> (0 < nf)%nat ->
  length (gr_data x) = (gr_h x * gr_w x * nf)%nat -> make_grid_edges (gr_h x) (gr_w x) nb = Ok es ->
  exact_solver_on solve (gr_h x * gr_w x) es -> length w = g_size (lg_graph (tg_lg t)) -> (0 < lg_states (tg_lg t))%nat ->
  exact_inference (ltg_smodel solve t) (ltg_task t) w x /\
  forall h, labelling (gr_h x * gr_w x) (lg_states (tg_lg t)) h -> exact_laug (ltg_smodel solve t) (ltg_task t) w x h.
Proof.
  intros nl nf p nb t solve x es w ET HF HL HE HS HW HK. destruct (ltg_setup_inv _ _ _ _ _ ET) as [HG [E1 [E2 E3]]]. subst. split.
  - exact (ltg_exact_inference t x es HF HL HE solve w HS HW HK).
  - intros h Hh. exact (ltg_exact_laug t x es HG HF HL HE solve h w HS HW HK Hh).
Qed.
(** latent explains the labels, whatever the solver ... *)
Theorem C63_grid_latent_explains : forall nl nf p nb t solve x y w h, ltg_setup nl nf p nb = Ok t ->
  Forall (fun c => (0 < c)%nat) (lg_counts (tg_lg t)) -> Forall (fun l => (l < nl)%nat) y ->
  ltg_latent solve t x y w = Ok h -> explains (lg_counts (tg_lg t)) h y.
Proof.
  intros nl nf p nb t solve x y w h ET HC HY E. destruct (ltg_setup_inv _ _ _ _ _ ET) as [HG [E1 _]]. subst.
  exact (ltg_latent_explains t solve x y w h HG HY HC E).
Qed.
(** ... and in the best way, or by the first state of each label, if the solver is exact ... *)
Theorem C63_grid_latent_best_or_fallback : forall nl nf p nb t solve x es y w h, ltg_setup nl nf p nb = Ok t -> (0 < nf)%nat ->
  length (gr_data x) = (gr_h x * gr_w x * nf)%nat -> make_grid_edges (gr_h x) (gr_w x) nb = Ok es ->
  exact_solver_on solve (gr_h x * gr_w x) es -> length w = g_size (lg_graph (tg_lg t)) -> (0 < gr_h x * gr_w x)%nat -> (0 < lg_states (tg_lg t))%nat ->
  labelling (gr_h x * gr_w x) nl y -> ltg_latent solve t x y w = Ok h ->
  best_completion (ltg_task t) (grid_explains (lg_counts (tg_lg t))) w x y h \/ h = map (offset (lg_counts (tg_lg t))) y.
Proof.
  intros nl nf p nb t solve x es y w h ET HF HL HE HS HW HN HK HY E. destruct (ltg_setup_inv _ _ _ _ _ ET) as [HG [E1 [E2 E3]]]. subst.
  exact (ltg_latent_best t x es HG HF HL HE solve y w h HS HW HN HK HY E).
Qed.
(** ... and with small potentials always in the best way: all the latent learners ask of a model (C38, C40). *)
Theorem C63_grid_latent_exact : forall nl nf p nb t solve cluster x es y w B B', ltg_setup nl nf p nb = Ok t -> (0 < nf)%nat ->
  length (gr_data x) = (gr_h x * gr_w x * nf)%nat -> make_grid_edges (gr_h x) (gr_w x) nb = Ok es ->
  exact_solver_on solve (gr_h x * gr_w x) es -> length w = g_size (lg_graph (tg_lg t)) -> (0 < gr_h x * gr_w x)%nat ->
  labelling (gr_h x * gr_w x) nl y -> Forall (fun c => (0 < c)%nat) (lg_counts (tg_lg t)) ->
  (forall i s, (i < gr_h x * gr_w x)%nat -> (s < lg_states (tg_lg t))%nat ->
     - B <= unary_score nf w (fun f => get1 (gr_data x) (i * nf + f)) s /\ unary_score nf w (fun f => get1 (gr_data x) (i * nf + f)) s <= B) ->
  (forall s u, (s < lg_states (tg_lg t))%nat -> (u < lg_states (tg_lg t))%nat ->
     - B' <= get1 w (lg_states (tg_lg t) * nf + tri_index s u) /\ get1 w (lg_states (tg_lg t) * nf + tri_index s u) <= B') ->
  ofN (gr_h x * gr_w x) * (B + B) + ofN (length es) * (B' + B') < ofN 100 ->
  latent_exact (ltg_lmodel solve cluster t) (ltg_task t) (grid_explains (lg_counts (tg_lg t))) (g_size (lg_graph (tg_lg t))) w (x, y).
Proof. exact ltg_small. Qed.

(** * LatentDirectionalGridCRF, neighborhood=4 *)
(** One table for horizontal edges, one for vertical ones. *)
Theorem C63_directional_score : forall nl nf p d x es w h, ldg_setup nl nf p 4 = Ok d -> (0 < nf)%nat ->
  length (gr_data x) = (gr_h x * gr_w x * nf)%nat -> make_grid_edges (gr_h x) (gr_w x) 4 = Ok es ->
  length w = (lg_states (dg_lg d) * nf + 2 * (lg_states (dg_lg d) * lg_states (dg_lg d)))%nat -> labelling (gr_h x * gr_w x) (lg_states (dg_lg d)) h ->
  dot w (t_feat (ldg_task d) x h) =
    score (gr_h x * gr_w x) es (fun i s => unary_score nf w (fun f => get1 (gr_data x) (i * nf + f)) s)
      (fun e s u => edge_weight (lg_states (dg_lg d)) nf w
         (if (row_dist (gr_w x) (fst (nth e es (0, 0)%nat)) (snd (nth e es (0, 0)%nat)) =? 0)%nat then 0 else 1) s u) (lab h).
Proof.
  intros nl nf p d x es w h ED HF HL HE HW Hh. destruct (ldg_setup_inv _ _ _ _ _ ED) as [g [HG [E1 [E2 ->]]]]. subst nl nf.
  exact (proj2 (proj2 (ldg_feat g x es HF HL HE h w HW Hh))).
Qed.
Theorem C63_directional_implements : forall nl nf p d solve x es h, ldg_setup nl nf p 4 = Ok d -> (0 < nf)%nat ->
  length (gr_data x) = (gr_h x * gr_w x * nf)%nat -> make_grid_edges (gr_h x) (gr_w x) 4 = Ok es ->
  labelling (gr_h x * gr_w x) (lg_states (dg_lg d)) h ->
  implements (ldg_smodel solve d) (ldg_task d) (lg_states (dg_lg d) * nf + 2 * (lg_states (dg_lg d) * lg_states (dg_lg d))) x h.
Proof.
  intros nl nf p d solve x es h ED HF HL HE Hh. destruct (ldg_setup_inv _ _ _ _ _ ED) as [g [HG [E1 [E2 ->]]]]. subst nl nf.
  exact (ldg_implements g x es HG HF HL HE solve h Hh).
Qed.
Theorem C63_directional_exact : forall nl nf p d solve x es w, ldg_setup nl nf p 4 = Ok d -> (0 < nf)%nat ->
  length (gr_data x) = (gr_h x * gr_w x * nf)%nat -> make_grid_edges (gr_h x) (gr_w x) 4 = Ok es ->
  exact_on_tables solve (gr_h x * gr_w x) es -> length w = (lg_states (dg_lg d) * nf + 2 * (lg_states (dg_lg d) * lg_states (dg_lg d)))%nat ->
  (0 < lg_states (dg_lg d))%nat ->
  exact_inference (ldg_smodel solve d) (ldg_task d) w x /\
  forall h, labelling (gr_h x * gr_w x) (lg_states (dg_lg d)) h -> exact_laug (ldg_smodel solve d) (ldg_task d) w x h.
Proof.
  intros nl nf p d solve x es w ED HF HL HE HS HW HK. destruct (ldg_setup_inv _ _ _ _ _ ED) as [g [HG [E1 [E2 ->]]]]. subst nl nf. split.
  - exact (ldg_exact_inference g x es HF HL HE solve w HS HW HK).
  - intros h Hh. exact (ldg_exact_laug g x es HG HF HL HE solve h w HS HW HK Hh).
Qed.
Theorem C63_directional_latent_explains : forall nl nf p nb d solve x y w h, ldg_setup nl nf p nb = Ok d ->
  Forall (fun c => (0 < c)%nat) (lg_counts (dg_lg d)) -> Forall (fun l => (l < nl)%nat) y ->
  ldg_latent solve d x y w = Ok h -> explains (lg_counts (dg_lg d)) h y.
Proof.
  intros nl nf p nb d solve x y w h ED HC HY E. destruct (ldg_setup_inv _ _ _ _ _ ED) as [g [HG [E1 [E2 ->]]]]. subst nl.
  exact (ldg_latent_explains (LDG g (if (nb =? 4)%nat then 2 else 4) 4) solve x y w h HG HY HC E).
Qed.
Theorem C63_directional_latent_best_or_fallback : forall nl nf p d solve x es y w h, ldg_setup nl nf p 4 = Ok d -> (0 < nf)%nat ->
  length (gr_data x) = (gr_h x * gr_w x * nf)%nat -> make_grid_edges (gr_h x) (gr_w x) 4 = Ok es ->
  exact_on_tables solve (gr_h x * gr_w x) es -> length w = (lg_states (dg_lg d) * nf + 2 * (lg_states (dg_lg d) * lg_states (dg_lg d)))%nat ->
  (0 < gr_h x * gr_w x)%nat -> (0 < lg_states (dg_lg d))%nat -> labelling (gr_h x * gr_w x) nl y -> ldg_latent solve d x y w = Ok h ->
  best_completion (ldg_task d) (grid_explains (lg_counts (dg_lg d))) w x y h \/ h = map (offset (lg_counts (dg_lg d))) y.
Proof.
  intros nl nf p d solve x es y w h ED HF HL HE HS HW HN HK HY E. destruct (ldg_setup_inv _ _ _ _ _ ED) as [g [HG [E1 [E2 ->]]]]. subst nl nf.
  exact (ldg_latent_best g x es HG HF HL HE solve y w h HS HW HN HK HY E).
Qed.
Theorem C63_directional_latent_exact : forall nl nf p d solve cluster x es y w B B', ldg_setup nl nf p 4 = Ok d -> (0 < nf)%nat ->
  length (gr_data x) = (gr_h x * gr_w x * nf)%nat -> make_grid_edges (gr_h x) (gr_w x) 4 = Ok es ->
  exact_on_tables solve (gr_h x * gr_w x) es -> length w = (lg_states (dg_lg d) * nf + 2 * (lg_states (dg_lg d) * lg_states (dg_lg d)))%nat ->
  (0 < gr_h x * gr_w x)%nat -> labelling (gr_h x * gr_w x) nl y -> Forall (fun c => (0 < c)%nat) (lg_counts (dg_lg d)) ->
  (forall i s, (i < gr_h x * gr_w x)%nat -> (s < lg_states (dg_lg d))%nat ->
     - B <= unary_score nf w (fun f => get1 (gr_data x) (i * nf + f)) s /\ unary_score nf w (fun f => get1 (gr_data x) (i * nf + f)) s <= B) ->
  (forall k s u, (k < 2)%nat -> (s < lg_states (dg_lg d))%nat -> (u < lg_states (dg_lg d))%nat ->
     - B' <= edge_weight (lg_states (dg_lg d)) nf w k s u /\ edge_weight (lg_states (dg_lg d)) nf w k s u <= B') ->
  ofN (gr_h x * gr_w x) * (B + B) + ofN (length es) * (B' + B') < ofN 100 ->
  latent_exact (ldg_lmodel solve cluster d) (ldg_task d) (grid_explains (lg_counts (dg_lg d)))
    (lg_states (dg_lg d) * nf + 2 * (lg_states (dg_lg d) * lg_states (dg_lg d))) w (x, y).
Proof.
  intros nl nf p d solve cluster x es y w B B' ED HF HL HE HS HW HN HY HC HU HP HSM. destruct (ldg_setup_inv _ _ _ _ _ ED) as [g [HG [E1 [E2 ->]]]]. subst nl nf.
  exact (ldg_latent_exact g x es HG HF HL HE solve cluster y w B B' HS HW HN HY HC HU HP HSM).
Qed.

(** * LatentDirectionalGridCRF, any other neighborhood *)
(** The constructor accepts every value, but uses 4 neighbours with the weights for 8: no kind of inference works, whatever
    the image and the weights, and feature vectors have another length than the weights. *)
Theorem C63_directional_8_refuted : forall nl nf p nb d, ldg_setup nl nf p nb = Ok d -> nb <> 4%nat ->
  dg_nb d = 4%nat /\
  (forall solve x w, ldg_inference solve d x w = Err ValueError /\
     (forall h, ldg_loss_augmented_inference solve d x h w = Err ValueError) /\
     (forall y, ldg_latent solve d x y w = Err ValueError \/ ldg_latent solve d x y w = Err IndexError)) /\
  (forall x h, (0 < nf)%nat -> length (gr_data x) = (gr_h x * gr_w x * nf)%nat -> (0 < lg_states (dg_lg d))%nat ->
     labelling (gr_h x * gr_w x) (lg_states (dg_lg d)) h ->
     exists psi, ldg_joint_feature d x (EDiscrete h) = Ok psi /\
       length psi = (lg_states (dg_lg d) * nf + 2 * (lg_states (dg_lg d) * lg_states (dg_lg d)))%nat /\ length psi <> ldg_size d).
Proof.
  intros nl nf p nb d ED HB. destruct (ldg_setup_inv _ _ _ _ _ ED) as [g [HG [E1 [E2 ->]]]]. subst nl nf. apply Nat.eqb_neq in HB. rewrite HB.
  split; [reflexivity|]. split; [intros solve x w; exact (ldg_other solve g x w)|exact (ldg_other_joint g)].
Qed.

(** * init_latent *)
Theorem C63_init_explains : forall nl nf p nb cluster S,
  clusters cluster ->
  (forall t arrays H, ltg_setup nl nf p nb = Ok t -> ltg_init_latent cluster t arrays S = Ok H ->
     Forall2 (fun q h => explains (lg_counts (tg_lg t)) h (snd q)) S H) /\
  (forall d arrays H, ldg_setup nl nf p nb = Ok d -> ldg_init_latent cluster d arrays S = Ok H ->
     Forall2 (fun q h => explains (lg_counts (dg_lg d)) h (snd q)) S H).
Proof.
  intros nl nf p nb cluster S HC. split.
  - intros t arrays H ET E. destruct (ltg_setup_inv _ _ _ _ _ ET) as [HG _]. exact (ltg_init_explains cluster t arrays S H HG HC E).
  - intros d arrays H ED E. destruct (ldg_setup_inv _ _ _ _ _ ED) as [g [HG [_ [_ ->]]]]. exact (ldg_init_explains cluster (LDG g (if (nb =? 4)%nat then 2 else 4) 4) arrays S H HG HC E).
Qed.
(** On arrays of samples of one shape, with k-means, it works iff every label that occurs has states and occurs at least as
    often as it has states ... *)
Theorem C63_init_succeeds_iff : forall nl nf p nb cluster S h w c, (nb = 4 \/ nb = 8)%nat -> (0 < nf)%nat -> S <> [] -> fits_enough cluster ->
  Forall (fun q => gr_h (fst q) = h /\ gr_w (fst q) = w /\ gr_c (fst q) = c /\ length (gr_data (fst q)) = (h * w * nf)%nat /\
                   labelling (h * w) nl (snd q)) S ->
  (forall t, ltg_setup nl nf p nb = Ok t -> (exists H, ltg_init_latent cluster t true S = Ok H) <-> enough_nodes (lg_counts (tg_lg t)) (map snd S)) /\
  (forall d, ldg_setup nl nf p nb = Ok d -> (exists H, ldg_init_latent cluster d true S = Ok H) <-> enough_nodes (lg_counts (dg_lg d)) (map snd S)).
Proof.
  intros nl nf p nb cluster S h w c HB HF HN HC HS. split.
  - intros t ET. destruct (ltg_setup_inv _ _ _ _ _ ET) as [HG [E1 [E2 E3]]]. subst nl nf nb. exact (ltg_init_iff cluster t S h w c HC HG HF HB HN HS).
  - intros d ED. destruct (ldg_setup_inv _ _ _ _ _ ED) as [g [HG [E1 [E2 ->]]]]. subst nl nf.
    exact (ldg_init_iff cluster (LDG g (if (nb =? 4)%nat then 2 else 4) 4) S h w c HC HG HF (or_introl eq_refl) HN HS).
Qed.
(** ... but never on lists, which all other models accept. *)
Theorem C63_init_lists_refuted : forall nl nf p nb cluster S, (nb = 4 \/ nb = 8)%nat ->
  (forall t, ltg_setup nl nf p nb = Ok t -> ltg_init_latent cluster t false S = Err AttributeError) /\
  (forall d, ldg_setup nl nf p nb = Ok d -> ldg_init_latent cluster d false S = Err AttributeError).
Proof.
  intros nl nf p nb cluster S HB. split.
  - intros t ET. destruct (ltg_setup_inv _ _ _ _ _ ET) as [_ [_ [_ E]]]. rewrite <- E in HB. exact (proj1 (init_lists cluster t (LDG (tg_lg t) 2 4) S HB (or_introl eq_refl))).
  - intros d ED. destruct (ldg_setup_inv _ _ _ _ _ ED) as [g [_ [_ [_ ->]]]]. exact (proj2 (init_lists cluster (LTG g 4) (LDG g (if (nb =? 4)%nat then 2 else 4) 4) S (or_introl eq_refl) (or_introl eq_refl))).
Qed.
(** The clustered features of a pixel: its own, then for every direction how many neighbours ahead and behind have each label,
    divided by the number of neighbours. *)
Theorem C63_directional_neighbours : forall nl x y es f i, neighbor_features nl false x y es = Ok f -> (i < mrows x)%nat ->
  nth i f [] = nth i (mdat x) [] ++
    map (fun k => ofN k / Qcmax (ofN (list_sum (map (fun e => degree e i) es))) 1)
        (flat_map (fun e => map (leads_to e y i) (seq 0 nl) ++ map (comes_from e y i) (seq 0 nl)) es).
Proof. exact directional_features. Qed.

(** The losses score uses (C40): on labels of the pixels, the number of wrong ones, and the number of pixels. *)
Theorem C63_label_loss : forall nl nf p nb solve cluster n y y', labelling n nl y -> labelling n nl y' ->
  (forall t, ltg_setup nl nf p nb = Ok t ->
     lm_base_loss (ltg_lmodel solve cluster t) y y' = Ok (LossSpec.hamming n (fun _ => 1) (lab y) (lab y')) /\
     lm_max_loss (ltg_lmodel solve cluster t) y = Ok (ofN n)) /\
  (forall d, ldg_setup nl nf p nb = Ok d ->
     lm_base_loss (ldg_lmodel solve cluster d) y y' = Ok (LossSpec.hamming n (fun _ => 1) (lab y) (lab y')) /\
     lm_max_loss (ldg_lmodel solve cluster d) y = Ok (ofN n)).
Proof.
  intros nl nf p nb solve cluster n y y' H H'. split; intros t E.
  - unfold ltg_setup in E. apply Arrays.bind_ok in E. destruct E as [g [EG E]]. injection E as <-. exact (base_loss_value nl nf p g EG n y y' H H').
  - unfold ldg_setup in E. apply Arrays.bind_ok in E. destruct E as [g [EG E]]. injection E as <-. exact (base_loss_value nl nf p g EG n y y' H H').
Qed.

(** * Concrete cases *)
Example C63_hypotheses_met :
  ltg_setup 2 1 (SameStates 2) 4 = Ok ex24_t /\ ldg_setup 2 1 (SameStates 2) 4 = Ok ex24_d /\
  make_grid_edges 1 2 4 = Ok [(0, 1)%nat] /\ exact_on_tables ex24_solve 2 [(0, 1)%nat] /\ exact_solver_on ex24_solve 2 [(0, 1)%nat] /\
  length ex24_w = g_size (lg_graph ex24_g) /\ length ex24_wd = ldg_size ex24_d /\ labelling 2 4 [1; 2]%nat /\ labelling 2 2 [0; 1]%nat /\
  fits_enough ex24_cluster /\ clusters ex24_cluster /\ enough_nodes (lg_counts ex24_g) [[0; 1]; [0; 1]]%nat.
Proof.
  split; [reflexivity|]. split; [reflexivity|]. split; [reflexivity|]. split; [exact ex24_exact_tables|]. split; [exact (exact_tables_shared _ _ _ ex24_exact_tables)|].
  split; [reflexivity|]. split; [reflexivity|]. split; [split; [reflexivity|repeat constructor]|]. split; [split; [reflexivity|repeat constructor]|]. split; [exact (proj1 ex24_fits)|]. split; [exact (proj2 ex24_fits)|].
  intros l Hl. cbn in Hl. destruct Hl as [<-|[<-|[<-|[<-|[]]]]]; cbn; lia.
Qed.
(** inference, loss-augmented inference, completion, initial completion *)
Example C63_values :
  grid_inference ex24_solve (ltg_grid ex24_t) ex24_x ex24_w = Ok [1; 2]%nat /\
  ltg_loss_augmented_inference ex24_solve ex24_t ex24_x [1; 2]%nat ex24_w = Ok [1; 2]%nat /\
  ltg_latent ex24_solve ex24_t ex24_x [0; 1]%nat ex24_w = Ok [1; 2]%nat /\
  ldg_inference ex24_solve ex24_d ex24_x ex24_wd = Ok [1; 2]%nat /\
  ldg_latent ex24_solve ex24_d ex24_x [1; 0]%nat ex24_wd = Ok [3; 0]%nat /\
  ltg_init_latent ex24_cluster ex24_t true [(ex24_x, [0; 1]%nat); (ex24_x, [0; 1]%nat)] = Ok [[0; 3]; [0; 3]]%nat /\
  ldg_init_latent ex24_cluster ex24_d true [(ex24_x, [1; 1]%nat)] = Ok [[2; 3]]%nat /\
  ldg_init_latent ex24_cluster ex24_d true [(ex24_x, [0; 1]%nat)] = Err ValueError.
Proof. repeat split; vm_compute; reflexivity. Qed.
Print Assumptions C63_grid_score.
Print Assumptions C63_grid_implements.
Print Assumptions C63_grid_exact.
Print Assumptions C63_grid_latent_explains.
Print Assumptions C63_grid_latent_best_or_fallback.
Print Assumptions C63_grid_latent_exact.
Print Assumptions C63_directional_score.
Print Assumptions C63_directional_implements.
Print Assumptions C63_directional_exact.
Print Assumptions C63_directional_latent_explains.
Print Assumptions C63_directional_latent_best_or_fallback.
Print Assumptions C63_directional_latent_exact.
Print Assumptions C63_directional_8_refuted.
Print Assumptions C63_init_explains.
Print Assumptions C63_init_succeeds_iff.
Print Assumptions C63_init_lists_refuted.
Print Assumptions C63_directional_neighbours.
Print Assumptions C63_label_loss.

(** Properties of LatentGraphCRF (models/latent_graph_crf.py) and of SubgradientLatentSSVM
    (learners/subgradient_latent_ssvm.py): C35, C36, C37, C38, C56. *)
From Coq Require Import ZArith.
From Verif Require Import Model.LatentGraph Model.LatentLearner Model.SubgradientLatent Model.ChainCRF Spec.GraphSpec Spec.SolverSpec
  Proofs.GraphCRFProofs Proofs.LatentProofs Proofs.LatentProofs2 Proofs.LatentProofs3 Proofs.LatentProofs4 Proofs.LatentProofs5 Proofs.LatentProofs6 Proofs.LatentInit
  Spec.SubgradientSpec Spec.LatentSpec.

(** * C35: latent explains the labels *)
(** Nothing is assumed of the solver. *)
Theorem C35_latent_explains : forall nl nf p g solve x y w h, lg_setup nl nf p = Ok g ->
  Forall (fun c => (0 < c)%nat) (lg_counts g) -> Forall (fun l => (l < nl)%nat) y ->
  lg_latent solve g x y w = Ok h -> label_from_latent g h = Ok y /\ explains (lg_counts g) h y.
Proof.
  intros nl nf p g solve x y w h EG HC HY E. destruct (setup_laid_out _ _ _ _ EG) as [HG [E1 _]]. subst nl.
  assert (X := latent_consistent solve g x y w h HG (counts_pos g y HG HC HY) E). split; [apply label_explains; assumption|exact X].
Qed.
(** It returns a result whenever the solver returns some labelling. *)
Theorem C35_latent_succeeds : forall nl nf p g solve x y w, lg_setup nl nf p = Ok g -> mat_ok (gx_features x) -> mcols (gx_features x) = nf ->
  graph_edges (mrows (gx_features x)) (gx_edges x) -> length w = g_size (lg_graph g) -> (0 < mrows (gx_features x))%nat ->
  Forall (fun c => (0 < c)%nat) (lg_counts g) -> labelling (mrows (gx_features x)) nl y ->
  (forall U P, mat_ok U -> mat_ok P -> mrows U = mrows (gx_features x) -> mcols U = lg_states g -> mrows P = lg_states g -> mcols P = lg_states g ->
     exists h, solve U (Pw2 P) (gx_edges x) = Ok h /\ labelling (mrows (gx_features x)) (lg_states g) h) ->
  exists h, lg_latent solve g x y w = Ok h /\ explains (lg_counts g) h y.
Proof. exact latent_succeeds. Qed.
(** With an exact solver the completion is the best one, unless the fallback was used. *)
Theorem C35_latent_best_or_fallback : forall nl nf p g solve x y w h U P, lg_setup nl nf p = Ok g -> mat_ok (gx_features x) -> mcols (gx_features x) = nf ->
  graph_edges (mrows (gx_features x)) (gx_edges x) -> length w = g_size (lg_graph g) -> (0 < mrows (gx_features x))%nat ->
  Forall (fun c => (0 < c)%nat) (lg_counts g) -> labelling (mrows (gx_features x)) nl y ->
  exact_solver_on solve (mrows (gx_features x)) (gx_edges x) -> g_potentials (lg_graph g) x w = Ok (U, P) -> lg_latent solve g x y w = Ok h ->
  best_explanation (lg_counts g) (mrows (gx_features x)) (gx_edges x) (mget U) (fun _ => mget P) y h \/ h = map (offset (lg_counts g)) y.
Proof. exact latent_best_or_fallback. Qed.
(** The fallback is not used if the potentials are small. *)
Theorem C35_latent_best : forall nl nf p g solve x y w U P B B', lg_setup nl nf p = Ok g -> mat_ok (gx_features x) -> mcols (gx_features x) = nf ->
  graph_edges (mrows (gx_features x)) (gx_edges x) -> length w = g_size (lg_graph g) -> (0 < mrows (gx_features x))%nat ->
  Forall (fun c => (0 < c)%nat) (lg_counts g) -> labelling (mrows (gx_features x)) nl y ->
  exact_solver_on solve (mrows (gx_features x)) (gx_edges x) -> g_potentials (lg_graph g) x w = Ok (U, P) ->
  (forall i s, (i < mrows (gx_features x))%nat -> (s < lg_states g)%nat -> - B <= mget U i s /\ mget U i s <= B) ->
  (forall s t, (s < lg_states g)%nat -> (t < lg_states g)%nat -> - B' <= mget P s t /\ mget P s t <= B') ->
  ofN (mrows (gx_features x)) * (B + B) + ofN (length (gx_edges x)) * (B' + B') < ofN 100 ->
  exists h, lg_latent solve g x y w = Ok h /\
    best_explanation (lg_counts g) (mrows (gx_features x)) (gx_edges x) (mget U) (fun _ => mget P) y h.
Proof. exact latent_best_setup. Qed.
(** In general it is used although the solver is exact, and gives a worse completion. *)
Theorem C35_latent_best_refuted : exists U P h', lg_setup 2 1 (StatesList [2; 1]%nat) = Ok ex14_g /\ exact_solver_on max_product_solver 1 [] /\
  g_potentials (lg_graph ex14_g) ex14_x ex14_w = Ok (U, P) /\ lg_latent max_product_solver ex14_g ex14_x [0%nat] ex14_w = Ok [0%nat] /\
  explains (lg_counts ex14_g) h' [0%nat] /\
  score 1 [] (mget U) (fun _ => mget P) (lab [0%nat]) < score 1 [] (mget U) (fun _ => mget P) (lab h').
Proof. exact latent_suboptimal. Qed.
(** The label n_labels, one too large, is answered with a state that does not exist. *)
Theorem C35_label_out_of_range : forall nl nf p g solve x y w, lg_setup nl nf p = Ok g -> mat_ok (gx_features x) -> mcols (gx_features x) = nf ->
  graph_edges (mrows (gx_features x)) (gx_edges x) -> length w = g_size (lg_graph g) -> (0 < mrows (gx_features x))%nat -> (0 < lg_states g)%nat ->
  length y = mrows (gx_features x) -> Forall (fun l => (l <= nl)%nat) y -> In nl y ->
  (forall U P, mat_ok U -> mat_ok P -> mrows U = mrows (gx_features x) -> mcols U = lg_states g -> mrows P = lg_states g -> mcols P = lg_states g ->
     exists h, solve U (Pw2 P) (gx_edges x) = Ok h /\ labelling (mrows (gx_features x)) (lg_states g) h) ->
  exists h, lg_latent solve g x y w = Ok h /\ In (lg_states g) h.
Proof. exact latent_out_of_range. Qed.
(** A label without states cannot be explained, but no error is raised. *)
Theorem C35_label_without_states : forall g solve x y w h l, In l y -> nth l (lg_counts g) O = O ->
  lg_latent solve g x y w = Ok h -> ~ explains (lg_counts g) h y.
Proof. intros g solve x y w h l HI Hl _ H. destruct (explains_in _ _ _ _ H HI). lia. Qed.

(** * C36: layout of the states, initial completion *)
Theorem C36_layout : forall nl nf p g, lg_setup nl nf p = Ok g ->
  lg_labels g = nl /\ length (lg_counts g) = nl /\ lg_counts g = match p with SameStates k => repeat k nl | StatesList l => l end /\
  (forall h y, label_from_latent g h = Ok y <-> explains (lg_counts g) h y) /\
  (forall h, (forall y, label_from_latent g h <> Ok y) -> label_from_latent g h = Err IndexError) /\
  (forall s, (s < lg_states g)%nat -> in_block (lg_counts g) (owner (lg_counts g) s) s) /\
  (forall s l l', in_block (lg_counts g) l s -> in_block (lg_counts g) l' s -> l = l') /\
  (forall s l, in_block (lg_counts g) l s -> (s < lg_states g)%nat) /\
  (forall l l' s s', in_block (lg_counts g) l s -> in_block (lg_counts g) l' s' -> (l < l')%nat -> (s < s')%nat).
Proof. exact layout. Qed.
Theorem C36_setup : forall nl nf p,
  (exists g, lg_setup nl nf p = Ok g) <-> match p with SameStates _ => True | StatesList l => length l = nl end.
Proof. exact setup_iff. Qed.
Theorem C36_setup_error : forall nl nf l, length l <> nl -> lg_setup nl nf (StatesList l) = Err ValueError.
Proof. exact setup_err. Qed.
Theorem C36_kmeans_explains : forall cluster nl nf p g S H, clusters cluster -> lg_setup nl nf p = Ok g ->
  lg_init_latent cluster g S = Ok H -> Forall2 (fun s h => explains (lg_counts g) h (snd s) /\ label_from_latent g h = Ok (snd s)) S H.
Proof. exact init_explains. Qed.
Theorem C36_kmeans_succeeds : forall cluster nl nf p g S, S <> [] -> lg_setup nl nf p = Ok g ->
  (forall label k rows, (label < nl)%nat -> exists km, cluster label k rows = Ok km) ->
  Forall (fun s => labelling (mrows (gx_features (fst s))) nl (snd s) /\ mcols (gx_features (fst s)) = nf /\
                   graph_edges (mrows (gx_features (fst s))) (gx_edges (fst s))) S ->
  exists H, lg_init_latent cluster g S = Ok H.
Proof. exact init_succeeds. Qed.
(** With k-means, which needs as many rows as clusters, it does iff every label that occurs has states and occurs at least
    as often as it has states. *)
Theorem C36_init_succeeds_iff : forall cluster nl nf p g S, S <> [] -> lg_setup nl nf p = Ok g -> fits_enough cluster ->
  Forall (fun s => labelling (mrows (gx_features (fst s))) nl (snd s) /\ mcols (gx_features (fst s)) = nf /\
                   graph_edges (mrows (gx_features (fst s))) (gx_edges (fst s))) S ->
  (exists H, lg_init_latent cluster g S = Ok H) <-> enough_nodes (lg_counts g) (map snd S).
Proof. exact init_iff. Qed.
(** What is clustered: the features of the node and the shares of its neighbours' labels. *)
Theorem C36_neighbor_features : forall nl x y e f i, neighbor_features nl true x y [e] = Ok f -> (i < mrows x)%nat ->
  nth i f [] = nth i (mdat x) [] ++ tab1 nl (fun l => ofN (joined e y i l) / Qcmax (ofN (degree e i)) 1).
Proof. exact features_value. Qed.

(** * C37: loss augmentation *)
Theorem C37_augmented_score : forall nl nf p g n h u, lg_setup nl nf p = Ok g ->
  labelling n (lg_states g) h -> mat_ok u -> mrows u = n -> mcols u = lg_states g ->
  exists u', lg_augment g h (seq 0 (lg_states g)) u = Ok u' /\ mat_ok u' /\ mrows u' = n /\ mcols u' = lg_states g /\
  (forall i s, (i < n)%nat -> (s < lg_states g)%nat -> mget u' i s = mget u i s + if (owner (lg_counts g) (lab h i) =? owner (lg_counts g) s)%nat then 0 else 1) /\
  forall edges P h', labelling n (lg_states g) h' ->
    lg_loss g h h' = Ok (label_distance (lg_counts g) h h') /\
    score n edges (mget u') P (lab h') = score n edges (mget u) P (lab h') + label_distance (lg_counts g) h h'.
Proof. exact augmented_score. Qed.
(** LatentGraphCRF is a structured prediction model over latent labellings, to which the
    properties of the learners apply. *)
Theorem C37_latent_model : forall nl nf p g solve x h, lg_setup nl nf p = Ok g -> mat_ok (gx_features x) -> mcols (gx_features x) = nf ->
  graph_edges (mrows (gx_features x)) (gx_edges x) -> labelling (mrows (gx_features x)) (lg_states g) h ->
  implements (lg_smodel solve g) (lg_task g) (g_size (lg_graph g)) x h /\
  forall w, length w = g_size (lg_graph g) -> (0 < lg_states g)%nat -> exact_solver_on solve (mrows (gx_features x)) (gx_edges x) ->
    exact_laug (lg_smodel solve g) (lg_task g) w x h /\ exact_inference (lg_smodel solve g) (lg_task g) w x.
Proof. exact latent_model. Qed.
Theorem C37_continuous_loss : forall nl nf p g n h m, lg_setup nl nf p = Ok g -> labelling n (lg_states g) h -> mrows m = n -> mcols m = lg_states g ->
  lg_continuous_loss g h m =
    Ok (sumn n (fun i => 1 - sumn (lg_states g) (fun s => if (owner (lg_counts g) s =? owner (lg_counts g) (lab h i))%nat then mget m i s else 0))).
Proof. intros nl nf p g n h m EG. exact (lg_continuous_value g (proj1 (setup_laid_out _ _ _ _ EG)) n h m). Qed.
Theorem C37_continuous_loss_discrete : forall nl nf p g n h h', lg_setup nl nf p = Ok g -> labelling n (lg_states g) h -> labelling n (lg_states g) h' ->
  lg_continuous_loss g h (mtab n (lg_states g) (fun i s => ind (s =? lab h' i)%nat)) = lg_loss g h h'.
Proof. intros nl nf p g n h h' EG. exact (lg_continuous_discrete g (proj1 (setup_laid_out _ _ _ _ EG)) n h h'). Qed.
Theorem C37_loss_of_bad_state : forall nl nf p g h h', lg_setup nl nf p = Ok g ->
  (~ Forall (fun s => (s < lg_states g)%nat) h \/ ~ Forall (fun s => (s < lg_states g)%nat) h') -> lg_loss g h h' = Err IndexError.
Proof. intros nl nf p g h h' EG. exact (lg_loss_bad g (proj1 (setup_laid_out _ _ _ _ EG)) h h'). Qed.

(** * C38: the loss of an observed labelling *)
Theorem C38_right_iff : forall nl nf p g n y, lg_setup nl nf p = Ok g -> labelling n nl y -> Forall (fun c => (0 < c)%nat) (lg_counts g) ->
  (forall h, labelling n (lg_states g) h -> lg_loss g y h = Ok (hamming n (fun _ => 1) (lab y) (fun i => owner (lg_counts g) (lab h i)))) <->
  (forall i, (i < n)%nat -> owner (lg_counts g) (lab y i) = lab y i).
Proof. exact loss_right_iff. Qed.
(** With k >= 2 states per label every node not labelled 0 is charged although the answer is right... *)
Theorem C38_same_states_charged : forall nl nf k g n y h, lg_setup nl nf (SameStates k) = Ok g -> (2 <= k)%nat -> labelling n nl y -> explains (lg_counts g) h y ->
  lg_loss g y h = Ok (sumn n (fun i => if (lab y i =? 0)%nat then 0 else 1)).
Proof. exact same_states_charge. Qed.
(** ... so that a perfect predictor's score is the share of label 0. *)
Theorem C38_perfect_score : forall nl nf k g solve cluster S w, lg_setup nl nf (SameStates k) = Ok g -> (2 <= k)%nat ->
  Forall (fun p => Forall (fun l => (l < nl)%nat) (snd p) /\ exists h, g_inference solve (lg_graph g) (fst p) w = Ok h /\ explains (lg_counts g) h (snd p)) S ->
  (0 < list_sum (map (fun p => length (snd p)) S))%nat ->
  latent_predict (lg_lmodel solve cluster g) w (map fst S) = Ok (map snd S) /\
  latent_score (lg_lmodel solve cluster g) w S =
    Ok (1 - ofN (list_sum (map (fun p => length (filter (fun l => negb (l =? 0)%nat) (snd p))) S)) / ofN (list_sum (map (fun p => length (snd p)) S))).
Proof. exact perfect_score. Qed.
(** The objective is the latent structural SVM objective if the loss charged is right... *)
Theorem C38_objective : forall {X Y} (T : task X Y) E d (m : lmodel X Y) C w S, sm_rescale (lm_s m) = false -> length w = d -> S <> [] ->
  Forall (latent_exact m T E d w) S -> Forall (right_loss m T E) S ->
  exists vs, latent_objective m C w S = Ok (primal_value C w vs) /\ latent_hinges T E w S vs.
Proof. intros X Y T E d m C w S HR. exact (objective_right T E d m HR C w S). Qed.
(** ... and can be too large otherwise. *)
Theorem C38_objective_refuted : exists o, lg_setup 2 1 (SameStates 2) = Ok ex14_g2 /\
  latent_exact (lg_lmodel max_product_solver ex14_cluster ex14_g2) (lg_task ex14_g2) (lg_E ex14_g2) 14 ex14_w2 (ex14_x, [1%nat]) /\
  latent_objective (lg_lmodel max_product_solver ex14_cluster ex14_g2) 1 ex14_w2 [(ex14_x, [1%nat])] = Ok o /\
  forall vs, latent_hinges (lg_task ex14_g2) (lg_E ex14_g2) ex14_w2 [(ex14_x, [1%nat])] vs -> primal_value 1 ex14_w2 vs < o.
Proof. exact objective_wrong. Qed.

(** * C56: latent subgradient learning *)
(** The hinge loss of a completed sample bounds the latent one everywhere and agrees with it where
    the completion is best. *)
Theorem C56_majorant : forall {X Y} (T : task X Y) (E : X -> Y -> Y -> Prop) x y h,
  (forall h h' z, E x y h -> E x y h' -> t_label T x z -> t_loss T h z = t_loss T h' z) -> E x y h ->
  (forall w v v', is_latent_hinge T E w x y v -> is_hinge T w x h v' -> v <= v') /\
  (forall w v v', best_completion T E w x y h -> is_latent_hinge T E w x y v -> is_hinge T w x h v' -> v = v').
Proof. intros X Y. exact majorant. Qed.
(** An online step goes against a subgradient of that bound. *)
Theorem C56_online_step : forall {X Y} (T : task X Y) E d (m : lmodel X Y) prm n lr p st, sm_rescale (lm_s m) = false ->
  0 < sg_C prm -> (0 < n)%nat -> latent_exact m T E d (sg_w st) p -> can_step prm n (sg_t st) -> shaped d st -> sg_momentum prm = 0 ->
  exists h st' v g, best_completion T E (sg_w st) (fst p) (snd p) h /\ lsg_online_step prm m n lr p st = Ok (st', v) /\
    is_latent_hinge T E (sg_w st) (fst p) (snd p) v /\ shaped d st' /\ step_against prm n lr g st st' /\
    strong_subgradient T d (sg_C prm * ofN n) [(fst p, h)] (sg_w st) g.
Proof. intros X Y T E d m prm n lr p st HR. exact (online_latent_step T E d m HR prm n lr p st). Qed.
(** It is the step of SubgradientSSVM on the completed sample, whatever the oracles. *)
Theorem C56_step_of_completed_sample : forall {X Y} (m : lmodel X Y) prm n lr p st h st' b, sm_rescale (lm_s m) = false ->
  lm_latent m (fst p) (snd p) (sg_w st) = Ok h ->
  (exists sl, lsg_online_step prm m n lr p st = Ok (st', sl) /\ b = Qcltb 0 sl) <->
  sg_online_step prm (lm_s m) n lr (fst p, h) st = Ok (st', b).
Proof. intros X Y m prm n lr p st h st' b HR. exact (online_completed m HR prm n lr p st h st' b). Qed.
(** An epoch visits the samples in order, counts the positive slacks and sums them. *)
Theorem C56_epoch : forall {X Y} prm (m : lmodel X Y) lr S st st' pos obj, sg_jobs prm = 1%Z ->
  lsg_epoch prm m lr S st = Ok (st', pos, obj) <->
  exists V, map (fun v => fst (fst v)) V = S /\ lsg_visits prm m (length S) lr st V /\ st' = last (map (fun v => snd (fst v)) V) st /\
    pos = length (filter (fun v => Qcltb 0 (snd v)) V) /\ obj = lsum (map (fun v => Qcmax (snd v) 0) V).
Proof. intros X Y. exact epoch_visits. Qed.
(** n_jobs = -1: a batch takes one step against a subgradient of the mean over the batch of the
    bounds above, counts the positive slacks and sums them. *)
Theorem C56_parallel_batch : forall {X Y} (T : task X Y) E d (m : lmodel X Y) prm n lr B Bs st pos obj, sm_rescale (lm_s m) = false ->
  0 < sg_C prm -> (0 < n)%nat -> B <> [] -> sm_size (lm_s m) = d ->
  Forall (latent_exact m T E d (sg_w st)) B -> Forall (right_loss m T E) B -> can_step prm n (sg_t st) -> shaped d st -> sg_momentum prm = 0 ->
  exists hs vs st' g, Forall2 (fun p h => best_completion T E (sg_w st) (fst p) (snd p) h) B hs /\ latent_hinges T E (sg_w st) B vs /\
    shaped d st' /\ step_against prm n lr g st st' /\
    strong_subgradient T d (sg_C prm * ofN n / ofN (length B)) (combine (map fst B) hs) (sg_w st) g /\
    lsg_par prm m n lr (B :: Bs) st pos obj = lsg_par prm m n lr Bs st' (pos + length (filter (Qcltb 0) vs)) (obj + lsum vs).
Proof. intros X Y T E d m prm n lr B Bs st pos obj HR. exact (latent_par_step T E d m HR prm n lr B Bs st pos obj). Qed.
Theorem C56_early_stop : forall {X Y} prm (m : lmodel X Y) w0 S L w lr c t, sg_jobs prm = 1%Z ->
  lsg_fit prm m w0 false S L = Ok (SGLearner t (Some (w, lr, c))) ->
  (1 <= length c <= Datatypes.S (sg_max_iter prm))%nat /\
  ((length c <= sg_max_iter prm)%nat -> sg_break prm = true /\ exists st0 V, map (fun v => fst (fst v)) V = S /\
    lsg_visits prm m (length S) lr st0 V /\ w = sg_self (last (map (fun v => snd (fst v)) V) st0) /\ Forall (fun v => snd v <= 0) V).
Proof. intros X Y. exact lsg_early_stop. Qed.
(** The curve ends with _objective (C38) of the weights returned. *)
Theorem C56_final_objective : forall {X Y} prm (m : lmodel X Y) w0 warm S L L', lsg_fit prm m w0 warm S L = Ok L' ->
  exists w lr c o, sl_fitted L' = Some (w, lr, c ++ [o]) /\ latent_objective m (sg_C prm) w S = Ok o.
Proof. intros X Y. exact lsg_curve_last. Qed.
(** Every other n_jobs than 1 and -1 fails. *)
Theorem C56_jobs_fail : forall {X Y} prm (m : lmodel X Y) w0 S L, (0 < sg_max_iter prm)%nat -> sg_jobs prm <> 1%Z -> sg_jobs prm <> (-1)%Z ->
  lsg_fit prm m w0 false S L = Err AttributeError.
Proof. intros X Y. exact lsg_jobs_fail. Qed.

(** * the hypotheses are met, and values *)
Example C35_hypotheses_met : lg_setup 2 1 (SameStates 2) = Ok ex14_g2 /\ mat_ok (gx_features ex14_x) /\ graph_edges 1 (gx_edges ex14_x) /\
  length ex14_w2 = g_size (lg_graph ex14_g2) /\ Forall (fun c => (0 < c)%nat) (lg_counts ex14_g2) /\ labelling 1 2 [1%nat] /\
  exact_solver_on max_product_solver (mrows (gx_features ex14_x)) (gx_edges ex14_x) /\
  lg_latent max_product_solver ex14_g2 ex14_x [1%nat] ex14_w2 = Ok [2%nat].
Proof.
  split; [reflexivity|]. split; [split; [reflexivity|repeat constructor]|]. split; [constructor|]. split; [reflexivity|]. split; [repeat constructor|].
  split; [split; [reflexivity|repeat constructor]|]. split; [exact ex14_exact|]. vm_compute. reflexivity.
Qed.
Example C35_out_of_range_computed : lg_latent max_product_solver ex14_g2 ex14_x [2%nat] ex14_w2 = Ok [4%nat] /\ lg_states ex14_g2 = 4%nat.
Proof. split; vm_compute; reflexivity. Qed.
Example C36_computed :
  option_map lg_map (match lg_setup 3 1 (StatesList [2; 1; 3]%nat) with Ok g => Some g | Err _ => None end) = Some [0; 0; 1; 2; 2; 2]%nat /\
  match lg_setup 3 1 (StatesList [2; 1; 3]%nat) with Ok g => label_from_latent g [5; 0; 2]%nat | Err e => Err e end = Ok [2; 0; 1]%nat /\
  clusters (fun _ k _ => if (k =? 0)%nat then Err ValueError else Ok (fun _ => (k - 1)%nat)) /\
  match lg_setup 3 1 (StatesList [2; 1; 3]%nat) with
  | Ok g => lg_init_latent (fun _ k _ => if (k =? 0)%nat then Err ValueError else Ok (fun _ => (k - 1)%nat)) g [(GraphX (Mat 3 1 [[1]; [0]; [1]]) [(0, 1); (1, 2)]%nat, [2; 0; 1]%nat)]
  | Err e => Err e
  end = Ok [[5; 1; 2]%nat] /\
  match neighbor_features 3 true (Mat 3 1 [[1]; [0]; [1]]) [2; 0; 1]%nat [[(0, 1); (1, 2)]%nat] with
  | Ok f => map (map this) f = [[1; 1; 0; 0]; [0; 0; 1 # 2; 1 # 2]; [1; 1; 0; 0]]%Q
  | Err _ => False
  end.
Proof.
  split; [vm_compute; reflexivity|]. split; [vm_compute; reflexivity|]. split; [|split; vm_compute; reflexivity].
  intros label k rows km H r. destruct (Nat.eqb_spec k 0); [discriminate H|]. injection H as <-. lia.
Qed.
Example C38_computed :
  match latent_score (lg_lmodel max_product_solver ex14_cluster ex14_g2) ex14_w2 [(ex14_x, [1%nat])],
        latent_predict (lg_lmodel max_product_solver ex14_cluster ex14_g2) ex14_w2 [ex14_x] with
  | Ok s, Ok Y => this s = 0%Q /\ Y = [[1%nat]]
  | _, _ => False
  end.
Proof. vm_compute. split; reflexivity. Qed.
Example C56_hypotheses_met : let prm := SGParams 1 2 0 None 1 1 1 1 None AvgNone true in
  latent_exact (lg_lmodel max_product_solver ex14_cluster ex14_g2) (lg_task ex14_g2) (lg_E ex14_g2) 14 ex14_w2 (ex14_x, [1%nat]) /\
  shaped 14 (SGState ex14_w2 ex14_w2 (vzero 14) 0) /\ can_step prm 1 0 /\
  match lsg_fit prm (lg_lmodel max_product_solver ex14_cluster ex14_g2) ex14_w2 false [(ex14_x, [1%nat])] sg_new,
        lsg_fit (SGParams 1 2 0 None (-1) 1 1 1 None AvgNone true) (lg_lmodel max_product_solver ex14_cluster ex14_g2) (vzero 14) false [(ex14_x, [1%nat])] sg_new with
  | Ok (SGLearner t (Some (w, _, c))), Ok (SGLearner t' (Some (w', _, c'))) =>
      t = 1%nat /\ map this (firstn 4 w) = [0; 0; 0; 0]%Q /\ map this c = [0]%Q /\ t' = 1%nat /\ map this (firstn 4 w') = [-1 # 1; 0; 1; 0]%Q /\ length c' = 1%nat
  | _, _ => False
  end.
Proof.
  cbv zeta. split; [exact ex14_right_exact|]. split; [repeat split|]. split; [split; [discriminate|intros _; discriminate]|]. vm_compute. repeat split.
Qed.
Print Assumptions C35_latent_explains.
Print Assumptions C35_latent_succeeds.
Print Assumptions C35_latent_best_or_fallback.
Print Assumptions C35_latent_best.
Print Assumptions C35_latent_best_refuted.
Print Assumptions C35_label_out_of_range.
Print Assumptions C35_label_without_states.
Print Assumptions C36_layout.
Print Assumptions C36_setup.
Print Assumptions C36_setup_error.
Print Assumptions C36_kmeans_explains.
Print Assumptions C36_kmeans_succeeds.
Print Assumptions C36_neighbor_features.
Print Assumptions C37_augmented_score.
Print Assumptions C37_latent_model.
Print Assumptions C37_continuous_loss.
Print Assumptions C37_continuous_loss_discrete.
Print Assumptions C37_loss_of_bad_state.
Print Assumptions C38_right_iff.
Print Assumptions C38_same_states_charged.
Print Assumptions C38_perfect_score.
Print Assumptions C38_objective.
Print Assumptions C38_objective_refuted.
Print Assumptions C56_majorant.
Print Assumptions C56_online_step.
Print Assumptions C56_step_of_completed_sample.
Print Assumptions C56_epoch.
Print Assumptions C56_parallel_batch.
Print Assumptions C56_early_stop.
Print Assumptions C56_final_objective.
Print Assumptions C56_jobs_fail.
Print Assumptions C36_init_succeeds_iff.

(** What the latent learners see of a model object; find_constraint_latent and
    SubgradientLatentSSVM.score / _objective. *)
From Verif Require Export Model.Learner Model.LatentGraph.

(** methods of a latent variable model beyond those of [smodel]; labels and latent labellings
    have the same type (integer arrays) *)
Record lmodel (X Y : Type) := LModel {
  lm_s : smodel X Y;
  lm_latent : X -> Y -> list Qc -> res Y;
  lm_label : Y -> res Y;
  lm_base_loss : Y -> Y -> res Qc;
  lm_max_loss : Y -> res Qc;
  lm_init : list (X * Y) -> res (list Y) }.
Arguments LModel {X Y}. Arguments lm_s {X Y}. Arguments lm_latent {X Y}. Arguments lm_label {X Y}.
Arguments lm_base_loss {X Y}. Arguments lm_max_loss {X Y}. Arguments lm_init {X Y}.

(** LatentGraphCRF with a solver returning integer labellings; max_loss is inherited *)
Definition lg_smodel (solve : solver) (g : lg_crf) : smodel graph_x (list nat) :=
  SModel (g_size (lg_graph g)) false (fun x h _ => g_joint_feature (lg_graph g) x (Discrete h))
    (g_inference solve (lg_graph g)) (lg_loss_augmented_inference solve g)
    (fun _ => false) (lg_loss g) (fun _ _ => Err AttributeError).
Definition lg_lmodel (solve : solver) (cluster : clusterer) (g : lg_crf) : lmodel graph_x (list nat) :=
  LModel (lg_smodel solve g) (lg_latent solve g) (label_from_latent g) (lg_base_loss g)
    (max_loss (lg_cw g)) (lg_init_latent cluster g).

(** [find_constraint_latent], utils/inference.py 86-101; model.loss dispatches on tuples *)
Definition find_constraint_latent {X Y} (m : lmodel X Y) (x : X) (y : Y) (w : list Qc) : res (Y * list Qc * Qc * Qc) :=
  let s := lm_s m in
  let! h := lm_latent m x y w in
  let! h_hat := sm_laug s x h w in
  let! f := sm_joint s x h None in
  let! f_hat := sm_joint s x h_hat None in
  let! delta := np_vsub f f_hat in
  let! loss := (if sm_tuple s h_hat then sm_closs s y h_hat else sm_loss s y h_hat) in
  let! d := np_dot w delta in
  Ok (h_hat, delta, Qcmax (loss - d) 0, loss).
(** [SubgradientLatentSSVM._objective], subgradient_latent_ssvm.py 274-284 *)
Definition latent_objective {X Y} (m : lmodel X Y) (C : Qc) (w : list Qc) (S : list (X * Y)) : res Qc :=
  let! cs := mapM (fun p => find_constraint_latent m (fst p) (snd p) w) S in
  let! _ := ensure (negb (length cs =? 0)%nat) IndexError in
  let slacks := map (fun c => Qcmax (snd (fst c)) 0) cs in
  Ok (lsum slacks * C + normsq w / (1 + 1)).
(** [SubgradientLatentSSVM.score], lines 246-272; models have batch_loss *)
Definition latent_score {X Y} (m : lmodel X Y) (w : list Qc) (S : list (X * Y)) : res Qc :=
  let s := lm_s m in
  let! H := mapM (fun p => sm_inference s (fst p) w) S in
  let! losses := mapM (fun q => if sm_tuple s (snd q) then sm_closs s (fst q) (snd q) else sm_loss s (fst q) (snd q))
                      (combine (map snd S) H) in
  let! mls := mapM (fun p => lm_max_loss m (snd p)) S in
  if Qceqb (lsum mls) 0 then Err NonFinite else Ok (1 - lsum losses / lsum mls).
(** [SubgradientLatentSSVM.predict], lines 239-241 *)
Definition latent_predict {X Y} (m : lmodel X Y) (w : list Qc) (Xs : list X) : res (list Y) :=
  let! H := mapM (fun x => sm_inference (lm_s m) x w) Xs in
  mapM (lm_label m) H.

(** C95: LatentGraphCRF on graphs of one node is a latent multiclass SVM
    (examples/plot_latent_svm_as_crf.py; models/latent_graph_crf.py 144-206, learners/latent_structured_svm.py 129-158). *)
From Coq Require Import ZArith String.
From Verif Require Import Model.Inference Model.SvmAsCrf Model.LatentLearner Model.LatentSSVM Model.Learner Spec.SimilarSpec Spec.ClassSpec Spec.SingleTypeSpec Spec.LatentSpec
  Proofs.OneNode Proofs.LatentProofs Proofs.LatentOneNode Proofs.LatentOneNode2.

(** Every latent state has a weight vector of its own; the pairwise weights play no role.  Prediction takes the first best state,
    and the label is the one that owns it: no state of any label scores higher. *)
Theorem C95_predict : forall nl F p g solve, lg_setup nl F p = Ok g -> (0 < lg_states g)%nat -> first_best_node (lg_states g) solve ->
  forall x w, length x = F -> length w = g_size (lg_graph g) ->
  exists s l, g_inference solve (lg_graph g) (node_x x) w = Ok [s] /\ label_from_latent g [s] = Ok (node_y l) /\
    first_argmax (lg_states g) (class_score F w x) s /\ in_block (lg_counts g) l s /\
    forall l' t, in_block (lg_counts g) l' t -> class_score F w x t <= class_score F w x s.
Proof.
  intros nl F p g solve EG HK HS x w HX HW. destruct (lnode_predict nl F p g solve EG HK HS x w HX HW) as (s & A & B & C).
  exists s, (owner (lg_counts g) s). split; [exact B|]. split; [exact C|]. split; [exact A|]. split; [apply owner_block, A|].
  intros l' t Ht. apply A. exact (block_states _ _ _ Ht).
Qed.
(** All instances: predict_latent, predict. *)
Theorem C95_predict_all : forall nl F p g solve cluster, lg_setup nl F p = Ok g -> (0 < lg_states g)%nat -> first_best_node (lg_states g) solve ->
  forall w, length w = g_size (lg_graph g) -> forall Xs, Forall (fun x => length x = F) Xs ->
  exists ss, Forall2 (fun x s => first_argmax (lg_states g) (class_score F w x) s) Xs ss /\
    cccp_predict_latent (lg_lmodel solve cluster g) w (map node_x Xs) = Ok (map (fun s => [s]) ss) /\
    cccp_predict (lg_lmodel solve cluster g) w (map node_x Xs) = Ok (map (fun s => node_y (owner (lg_counts g) s)) ss).
Proof. intros nl F p g solve cluster EG HK HS w HW. exact (predict_all nl F p g solve cluster EG HK HS w HW). Qed.
(** The score of LatentSSVM is the fraction of instances whose label is right. *)
Theorem C95_score : forall nl F p g solve cluster, lg_setup nl F p = Ok g -> (0 < lg_states g)%nat -> first_best_node (lg_states g) solve ->
  forall w, length w = g_size (lg_graph g) -> forall Xs Ys, Forall (fun x => length x = F) Xs -> length Ys = length Xs -> Ys <> [] ->
  Forall (fun y => (y < nl)%nat) Ys ->
  exists ls, Forall2 (fun x l => exists s, first_argmax (lg_states g) (class_score F w x) s /\ in_block (lg_counts g) l s) Xs ls /\
    cccp_score (lg_lmodel solve cluster g) w (map node_x Xs) (map node_y Ys) =
      Ok (1 - ofN (length (filter (fun q => negb (fst q =? snd q)%nat) (combine Ys ls))) / ofN (length Ys)).
Proof. intros nl F p g solve cluster EG HK HS w HW. exact (score_all nl F p g solve cluster EG HK HS w HW). Qed.
(** Loss-augmented inference: one is added to the states of all other labels. *)
Theorem C95_loss_augmented : forall nl F p g solve, lg_setup nl F p = Ok g -> (0 < lg_states g)%nat -> first_best_node (lg_states g) solve ->
  forall x w, length x = F -> length w = g_size (lg_graph g) -> forall h, (h < lg_states g)%nat ->
  exists s, first_argmax (lg_states g) (fun t => class_score F w x t + if (owner (lg_counts g) h =? owner (lg_counts g) t)%nat then 0 else 1) s /\
    lg_loss_augmented_inference solve g (node_x x) [h] w = Ok [s].
Proof. intros nl F p g solve EG HK HS x w HX HW. exact (lnode_laug nl F p g solve EG HK HS x w HX HW). Qed.
(** Completion of a label: its first best state, if one of its states scores more than -100 times
    the larger of 1 and the best score of all states. *)
Theorem C95_completion : forall nl F p g solve, lg_setup nl F p = Ok g -> (0 < lg_states g)%nat -> first_best_node (lg_states g) solve ->
  forall x w, length x = F -> length w = g_size (lg_graph g) -> forall y M, (y < nl)%nat ->
  1 <= M -> (forall s, (s < lg_states g)%nat -> class_score F w x s <= M) -> (M = 1 \/ exists s, (s < lg_states g)%nat /\ M = class_score F w x s) ->
  (exists t, in_block (lg_counts g) y t /\ - ofN 100 * M < class_score F w x t) ->
  exists s, lg_latent solve g (node_x x) (node_y y) w = Ok [s] /\ in_block (lg_counts g) y s /\
    (forall t, in_block (lg_counts g) y t -> class_score F w x t <= class_score F w x s) /\
    (forall t, in_block (lg_counts g) y t -> (t < s)%nat -> class_score F w x t < class_score F w x s).
Proof. intros nl F p g solve EG HK HS x w HX HW. exact (lnode_latent nl F p g solve EG HK HS x w HX HW). Qed.
(** If they all score less than that, the completion is the first state of the label, whatever the scores. *)
Theorem C95_completion_fallback : forall nl F p g solve, lg_setup nl F p = Ok g -> (0 < lg_states g)%nat -> first_best_node (lg_states g) solve ->
  forall x w, length x = F -> length w = g_size (lg_graph g) -> forall y M, (y < nl)%nat ->
  1 <= M -> (forall s, (s < lg_states g)%nat -> class_score F w x s <= M) -> (M = 1 \/ exists s, (s < lg_states g)%nat /\ M = class_score F w x s) ->
  (forall t, in_block (lg_counts g) y t -> class_score F w x t < - ofN 100 * M) -> (exists t, (t < lg_states g)%nat /\ ~ in_block (lg_counts g) y t) ->
  lg_latent solve g (node_x x) (node_y y) w = Ok [offset (lg_counts g) y].
Proof. intros nl F p g solve EG HK HS x w HX HW. exact (lnode_fallback nl F p g solve EG HK HS x w HX HW). Qed.
(** The constraint that the base learner finds for a completed sample: its slack is the multiclass
    hinge loss over states, with loss 0 for the states of the same label. *)
Theorem C95_constraint : forall nl F p g solve, lg_setup nl F p = Ok g -> (0 < lg_states g)%nat -> first_best_node (lg_states g) solve ->
  forall x w, length x = F -> length w = g_size (lg_graph g) -> forall h, (h < lg_states g)%nat ->
  exists s f, first_argmax (lg_states g) (fun t => class_score F w x t + if (owner (lg_counts g) h =? owner (lg_counts g) t)%nat then 0 else 1) s /\
    find_constraint (lg_smodel solve g) (node_x x) [h] w None true =
      Ok ([s], f, class_score F w x s + (if (owner (lg_counts g) h =? owner (lg_counts g) s)%nat then 0 else 1) - class_score F w x h,
          if (owner (lg_counts g) h =? owner (lg_counts g) s)%nat then 0 else 1).
Proof. intros nl F p g solve EG HK HS x w HX HW. exact (lnode_constraint nl F p g solve EG HK HS x w HX HW). Qed.

(** ** The hypotheses are met *)
Example C95_met : lg_setup 2 2 (SameStates 2) = Ok ex59_g /\ lg_states ex59_g = 4%nat /\ first_best_node 4 ex59_solve /\ length ex59_w = g_size (lg_graph ex59_g).
Proof. split; [reflexivity|]. split; [reflexivity|]. split; [exact (first_best_unary ex59_b 4)|reflexivity]. Qed.
(** scores 3, 1, -3, -1 of the states 0, 0, 1, 1 *)
Example C95_values :
  map (fun s => this (class_score 2 ex59_w [ofN 3; 1] s)) [0; 1; 2; 3]%nat = [3; 1; -3; -1]%Q /\
  cccp_predict (lg_lmodel ex59_solve (fun _ _ _ => Err NonFinite) ex59_g) ex59_w (map node_x [[ofN 3; 1]; [- ofN 3; - (1)]; [1; 1 + 1]]) = Ok [[0]; [1]; [0]]%nat /\
  lg_latent ex59_solve ex59_g (node_x [ofN 3; 1]) (node_y 1) ex59_w = Ok [3%nat] /\
  match find_constraint (lg_smodel ex59_solve ex59_g) (node_x [ofN 3; 1]) [3%nat] ex59_w None true with
  | Ok (s, _, slack, loss) => s = [0%nat] /\ this slack = 5%Q /\ this loss = 1%Q
  | Err _ => False
  end /\
  match cccp_score (lg_lmodel ex59_solve (fun _ _ _ => Err NonFinite) ex59_g) ex59_w (map node_x [[ofN 3; 1]; [- ofN 3; - (1)]; [1; 1 + 1]]) (map node_y [0; 1; 1]%nat) with
  | Ok v => this v = (2 # 3)%Q | Err _ => False end.
Proof. vm_compute. repeat split; reflexivity. Qed.
(** scores -200, -150, 0, 0: label 0 is completed by its state 0 although its state 1 is better *)
Example C95_fallback_met :
  let w := [- ofN 200; 0; - ofN 150; 0; 0; 0; 0; 0] ++ vzero 10 in
  map (fun s => this (class_score 2 w [1; 0] s)) [0; 1; 2; 3]%nat = [-200; -150; 0; 0]%Q /\
  lg_latent ex59_solve ex59_g (node_x [1; 0]) (node_y 0) w = Ok [0%nat].
Proof. vm_compute. split; reflexivity. Qed.

Print Assumptions C95_predict.
Print Assumptions C95_predict_all.
Print Assumptions C95_score.
Print Assumptions C95_loss_augmented.
Print Assumptions C95_completion.
Print Assumptions C95_completion_fallback.
Print Assumptions C95_constraint.

(** Specification vocabulary for latent variable models. *)
From Verif Require Export Spec.Energy Spec.LossSpec Spec.TaskSpec Spec.TaskInstances Model.LatentLearner Model.SubgradientLatent.

(** Label l has [nth l counts] latent states; the blocks of states follow one another. *)
Definition offset (counts : list nat) (l : nat) : nat := list_sum (firstn l counts).
Definition in_block (counts : list nat) (l s : nat) : Prop :=
  (l < length counts)%nat /\ (offset counts l <= s < offset counts (S l))%nat.
(** the label owning state [s] *)
Fixpoint owner (counts : list nat) (s : nat) : nat :=
  match counts with
  | [] => O
  | c :: r => if (s <? c)%nat then O else S (owner r (s - c))
  end.
(** latent states [h] explain the labels [y] *)
Definition explains (counts : list nat) (h y : list nat) : Prop := Forall2 (fun s l => in_block counts l s) h y.
(** number of nodes where the labels of two latent labellings differ *)
Definition label_distance (counts : list nat) (h h' : list nat) : Qc :=
  hamming (length h) (fun _ => 1) (fun i => owner counts (lab h i)) (fun i => owner counts (lab h' i)).
(** [h] is a best labelling among those explaining [y] *)
Definition best_explanation (counts : list nat) (n : nat) (edges : list (nat * nat)) (U : nat -> nat -> Qc)
           (P : nat -> nat -> nat -> Qc) (y h : list nat) : Prop :=
  explains counts h y /\ forall h', explains counts h' y -> score n edges U P (lab h') <= score n edges U P (lab h).
(** how often an edge joins node [i] to a node labelled [l]; number of edge ends at [i] *)
Definition joined (e : list (nat * nat)) (y : list nat) (i l : nat) : nat :=
  (length (filter (fun p => (fst p =? i) && (lab y (snd p) =? l))%nat e) +
   length (filter (fun p => (snd p =? i) && (lab y (fst p) =? l))%nat e))%nat.
Definition degree (e : list (nat * nat)) (i : nat) : nat :=
  (length (filter (fun p => fst p =? i)%nat e) + length (filter (fun p => snd p =? i)%nat e))%nat.
(** a clusterer predicts one of the requested clusters, whatever the data *)
Definition clusters (cluster : nat -> nat -> list (list Qc) -> res (list Qc -> nat)) : Prop :=
  forall label k rows km, cluster label k rows = Ok km -> forall r, (km r < k)%nat.
(** LatentGraphCRF as a task on latent labellings: every latent labelling, the features of the
    graph model over latent states, the number of nodes with different labels *)
Definition lg_task (g : lg_crf) : task graph_x (list nat) :=
  Task (fun x h => labelling (mrows (gx_features x)) (lg_states g) h)
       (fun x h => ok_or [] (g_joint_feature (lg_graph g) x (Discrete h)))
       (label_distance (lg_counts g)).
(** [h] is a best completion of [y] among those allowed by [E] *)
Definition best_completion {X Y} (T : task X Y) (E : X -> Y -> Y -> Prop) (w : list Qc) (x : X) (y h : Y) : Prop :=
  E x y h /\ forall h', E x y h' -> dot w (t_feat T x h') <= dot w (t_feat T x h).
(** value of the latent structured hinge loss: best margin violation of any labelling, the true
    side being completed in the best way *)
Definition is_latent_hinge {X Y} (T : task X Y) (E : X -> Y -> Y -> Prop) (w : list Qc) (x : X) (y : Y) (v : Qc) : Prop :=
  exists h, best_completion T E w x y h /\ is_hinge T w x h v.
(** the loss of an answer depends on the observed labels only, not on how they are completed;
    some completion exists; every completion is a labelling the model handles *)
Definition latent_implements {X Y} (m : lmodel X Y) (T : task X Y) (E : X -> Y -> Y -> Prop) (d : nat) (x : X) (y : Y) : Prop :=
  (exists h, E x y h) /\ (forall h, E x y h -> implements (lm_s m) T d x h) /\
  (forall h h' z, E x y h -> E x y h' -> t_label T x z -> t_loss T h z = t_loss T h' z).
(** completion is exact at (x, y, w) *)
Definition exact_latent {X Y} (m : lmodel X Y) (T : task X Y) (E : X -> Y -> Y -> Prop) (w : list Qc) (x : X) (y : Y) : Prop :=
  exists h, lm_latent m x y w = Ok h /\ best_completion T E w x y h.
(** ... and so is loss-augmented inference for every completion *)
Definition latent_exact {X Y} (m : lmodel X Y) (T : task X Y) (E : X -> Y -> Y -> Prop) (d : nat) (w : list Qc) (p : X * Y) : Prop :=
  latent_implements m T E d (fst p) (snd p) /\ exact_latent m T E w (fst p) (snd p) /\
  forall h, E (fst p) (snd p) h -> exact_laug (lm_s m) T w (fst p) h.
Definition latent_hinges {X Y} (T : task X Y) (E : X -> Y -> Y -> Prop) (w : list Qc) (S : list (X * Y)) (hs : list Qc) : Prop :=
  Forall2 (fun p v => is_latent_hinge T E w (fst p) (snd p) v) S hs.
(** online latent learning: the samples visited, each with the state after its step and its slack *)
Fixpoint lsg_visits {X Y} (prm : sg_params) (m : lmodel X Y) (n : nat) (lr : Qc) (st : sg_state) (V : list (X * Y * sg_state * Qc)) : Prop :=
  match V with
  | [] => True
  | (p, st', sl) :: r => lsg_online_step prm m n lr p st = Ok (st', sl) /\ lsg_visits prm m n lr st' r
  end.
(** the loss a latent learner charges, loss(y, z) with the observed labels y, is that of any
    completion of y *)
Definition right_loss {X Y} (m : lmodel X Y) (T : task X Y) (E : X -> Y -> Y -> Prop) (p : X * Y) : Prop :=
  forall h z, E (fst p) (snd p) h -> t_label T (fst p) z ->
  (if sm_tuple (lm_s m) z then sm_closs (lm_s m) (snd p) z else sm_loss (lm_s m) (snd p) z) = Ok (t_loss T h z).
(** completions of LatentGraphCRF *)
Definition lg_E (g : lg_crf) : graph_x -> list nat -> list nat -> Prop := fun _ y h => explains (lg_counts g) h y.
(** a clusterer that fits k clusters to any k rows or more, and to no fewer (KMeans) *)
Definition fits_enough (cluster : nat -> nat -> list (list Qc) -> res (list Qc -> nat)) : Prop :=
  forall label k rows, (exists km, cluster label k rows = Ok km) <-> (0 < k)%nat /\ (k <= length rows)%nat.
(** every label that occurs has states, and occurs at least as often as it has states *)
Definition enough_nodes (counts : list nat) (Y : list (list nat)) : Prop :=
  forall l, In l (concat Y) -> (0 < nth l counts O)%nat /\ (nth l counts O <= count_occ Nat.eq_dec (concat Y) l)%nat.

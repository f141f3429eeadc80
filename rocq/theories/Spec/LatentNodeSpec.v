(** Specification vocabulary for models with hidden nodes: visible nodes come first and carry
    the labels 0 .. L-1, hidden nodes carry the states L .. L+K-1. *)
From Verif Require Export Spec.Energy Spec.GraphSpec Spec.EdgeSpec Spec.LossSpec Spec.LatentSpec Model.LatentNode.

(** [h] is the labels [y] followed by states of [nh] hidden nodes *)
Definition completes (L K nh : nat) (y h : list nat) : Prop :=
  exists z, h = y ++ z /\ length z = nh /\ Forall (fun s => (L <= s < L + K)%nat) z.
(** a labelling of [nv] visible and [nh] hidden nodes *)
Definition two_level (L K nv nh : nat) (h : list nat) : Prop := exists y, labelling nv L y /\ completes L K nh y h.

(** well-formed instances: visible and hidden nodes of [x], edges between nodes *)
Record node_instance (g : ln_crf) (x : ln_x) (nv : nat) : Prop := {
  ni_ok : mat_ok (lx_features x);
  ni_cols : mcols (lx_features x) = ln_features g;
  ni_rows : mrows (lx_features x) = (nv + if ln_node_features g then lx_hidden x else 0)%nat;
  ni_edges : graph_edges (nv + lx_hidden x) (lx_edges x) }.
(** score of state [s] at node [i]; without features for hidden nodes only labels of visible
    nodes have weights *)
Definition node_score (g : ln_crf) (x : ln_x) (nv : nat) (w : list Qc) (i s : nat) : Qc :=
  if (ln_node_features g || ((i <? nv) && (s <? ln_labels g))%nat)%bool
  then unary_score (ln_features g) w (mget (lx_features x) i) s else 0.
(** score of the states of two joined nodes; the unary weights are those of n_input_states states *)
Definition joint_score (g : ln_crf) (w : list Qc) (s t : nat) : Qc :=
  get1 w (ln_input_states g * ln_features g + tri_index s t).
(** score of a labelling *)
Definition node_total (g : ln_crf) (x : ln_x) (nv : nat) (w : list Qc) (h : list nat) : Qc :=
  score (nv + lx_hidden x) (lx_edges x) (node_score g x nv w) (fun _ => joint_score g w) (lab h).
(** the same with edge features *)
Definition edge_joint_weight (g : el_crf) (w : list Qc) (f s t : nat) : Qc :=
  edge_weight (ln_states (el_node g)) 0 (skipn (ln_input_states (el_node g) * ln_features (el_node g)) w) f s t.
Definition edge_joint_score (g : el_crf) (x : el_x) (w : list Qc) (e s t : nat) : Qc :=
  sumn (el_edge_features g) (fun f => mget (xl_edge_features x) e f * edge_joint_weight g w f s t).
Definition edge_total (g : el_crf) (x : el_x) (nv : nat) (w : list Qc) (h : list nat) : Qc :=
  score (nv + lx_hidden (xl_node x)) (lx_edges (xl_node x)) (node_score (el_node g) (xl_node x) nv w) (edge_joint_score g x w) (lab h).
(** what joint_feature accounts for: every declared block replaced by its (anti)symmetric part *)
Definition edge_effective_total (g : el_crf) (x : el_x) (nv : nat) (w : list Qc) (h : list nat) : Qc :=
  score (nv + lx_hidden (xl_node x)) (lx_edges (xl_node x)) (node_score (el_node g) (xl_node x) nv w)
    (fun e s t => sumn (el_edge_features g) (fun f => mget (xl_edge_features x) e f *
       effective_weight (ln_states (el_node g)) 0 (el_sym g) (el_anti g)
         (skipn (ln_input_states (el_node g) * ln_features (el_node g)) w) f s t)) (lab h).
Definition edge_weights_ok (g : el_crf) (w : list Qc) : Prop :=
  respects_symmetry (ln_states (el_node g)) 0 (el_sym g) (el_anti g) (skipn (ln_input_states (el_node g) * ln_features (el_node g)) w).
Record edge_instance (g : el_crf) (x : el_x) (nv : nat) : Prop := {
  ei_node : node_instance (el_node g) (xl_node x) nv;
  ei_rows : mrows (xl_edge_features x) = length (lx_edges (xl_node x));
  ei_cols : mcols (xl_edge_features x) = el_edge_features g }.
(** declared features exist and are not declared twice *)
Definition edge_declared (g : el_crf) : Prop :=
  Forall (fun i => (i < el_edge_features g)%nat) (el_sym g) /\ Forall (fun i => (i < el_edge_features g)%nat) (el_anti g) /\
  (forall i, In i (el_sym g) -> ~ In i (el_anti g)).
(** loss: class-weighted Hamming distance on the visible nodes *)
Definition visible_loss (g : ln_crf) (h h' : list nat) : Qc :=
  hamming (length (filter (fun s => s <? ln_labels g)%nat h)) (get1 (ln_cw g)) (lab h) (lab h').
(** potentials so small that breaking the rules (labels on visible nodes, hidden states on hidden
    nodes), a penalty of at least 100, never pays; [R] bounds the class weights *)
Definition node_small (g : ln_crf) (x : ln_x) (nv : nat) (w : list Qc) (R : Qc) : Prop :=
  exists B B', 0 <= B /\
  (forall i s, (i < nv + lx_hidden x)%nat -> (s < ln_states g)%nat -> ((i < nv)%nat <-> (s < ln_labels g)%nat) ->
     - B <= node_score g x nv w i s /\ node_score g x nv w i s <= B) /\
  (forall s t, (s < ln_states g)%nat -> (t < ln_states g)%nat -> - B' <= joint_score g w s t /\ joint_score g w s t <= B') /\
  ofN (nv + lx_hidden x) * (B + R + (B + R)) + ofN (length (lx_edges x)) * (B' + B') < ofN 100.
Definition edge_small (g : el_crf) (x : el_x) (nv : nat) (w : list Qc) (R : Qc) : Prop :=
  exists B B', 0 <= B /\
  (forall i s, (i < nv + lx_hidden (xl_node x))%nat -> (s < ln_states (el_node g))%nat -> ((i < nv)%nat <-> (s < ln_labels (el_node g))%nat) ->
     - B <= node_score (el_node g) (xl_node x) nv w i s /\ node_score (el_node g) (xl_node x) nv w i s <= B) /\
  (forall e s t, (e < length (lx_edges (xl_node x)))%nat -> (s < ln_states (el_node g))%nat -> (t < ln_states (el_node g))%nat ->
     - B' <= edge_joint_score g x w e s t /\ edge_joint_score g x w e s t <= B') /\
  ofN (nv + lx_hidden (xl_node x)) * (B + R + (B + R)) + ofN (length (lx_edges (xl_node x))) * (B' + B') < ofN 100.
(** class weights between 0 and [R], one per label *)
Definition weights_within (g : ln_crf) (R : Qc) : Prop :=
  length (ln_cw g) = ln_labels g /\ 0 <= R /\ forall l, (l < ln_labels g)%nat -> 0 <= get1 (ln_cw g) l /\ get1 (ln_cw g) l <= R.
(** the task *)
Definition ln_task (g : ln_crf) (nv : ln_x -> nat) : task ln_x (list nat) :=
  Task (fun x h => two_level (ln_labels g) (ln_hidden g) (nv x) (lx_hidden x) h)
       (fun x h => ok_or [] (ln_joint_feature g x (LNDiscrete h))) (visible_loss g).
Definition el_task (g : el_crf) (nv : el_x -> nat) : task el_x (list nat) :=
  Task (fun x h => two_level (ln_labels (el_node g)) (ln_hidden (el_node g)) (nv x) (lx_hidden (xl_node x)) h)
       (fun x h => ok_or [] (el_joint_feature g x (ELDiscrete h))) (visible_loss (el_node g)).
(** completions *)
Definition ln_E (g : ln_crf) : ln_x -> list nat -> list nat -> Prop :=
  fun x y h => completes (ln_labels g) (ln_hidden g) (lx_hidden x) y h.
Definition el_E (g : el_crf) : el_x -> list nat -> list nat -> Prop :=
  fun x y h => completes (ln_labels (el_node g)) (ln_hidden (el_node g)) (lx_hidden (xl_node x)) y h.
(** number of edges between node [v] and visible nodes labelled [l] *)
Definition visible_joined (e : list (nat * nat)) (nv : nat) (y : list nat) (v l : nat) : nat :=
  (length (filter (fun p => (fst p =? v) && (snd p <? nv) && (lab y (snd p) =? l))%nat e) +
   length (filter (fun p => (snd p =? v) && (fst p <? nv) && (lab y (fst p) =? l))%nat e))%nat.
(** cluster numbers are in range *)
Definition ln_clusters (cluster : ln_clusterer) : Prop :=
  forall k rows km, cluster k rows = Ok km -> forall r, (km r < k)%nat.

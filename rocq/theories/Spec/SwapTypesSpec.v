(** Specification for renumbering node types: in the renumbered model type [t] is what type
    [part p t] was before. *)
From Coq Require Import ZArith.
From Verif Require Export Spec.TypedSpec Model.SwapTypes.

Definition permutes (n : nat) (p : list nat) : Prop :=
  length p = n /\ (forall t, (t < n)%nat -> (part p t < n)%nat) /\
  (forall s t, (s < n)%nat -> (t < n)%nat -> part p s = part p t -> s = t).
(** a permutation that is its own inverse, such as the exchange of two types *)
Definition involution (n : nat) (p : list nat) : Prop :=
  length p = n /\ forall t, (t < n)%nat -> (part p t < n)%nat /\ part p (part p t) = t.

(** the model with renumbered types *)
Definition renumber (p : list nat) (g : ty_crf) : ty_crf :=
  TyCRF (map (part (ty_states g)) p) (map (part (ty_features g)) p)
        (map (fun a => map (part (nth a (ty_edge_features g) [])) p) p)
        (map (fun t => nth t (ty_weights g) []) p) (ty_method g) (ty_exception g).
(** its weights: the same blocks in the order of the renumbered types *)
Definition renumber_weights (p : list nat) (g : ty_crf) (w : list Qc) : list Qc :=
  (concat (map (fun t => slice (node_start g t) (node_start g t + part (ty_states g) t * part (ty_features g) t) w) p) ++
   concat (map (fun q => slice (edge_start g (fst q) (snd q)) (edge_start g (fst q) (snd q) + pair_size g (fst q) (snd q)) w)
               (list_prod p p)))%list.

(** the same nodes and edges under the new numbers *)
Definition renumbered (n : nat) (p : list nat) (x x' : typed_x) : Prop :=
  length (tx_nodes x') = n /\ length (tx_edges x') = (n * n)%nat /\ length (tx_edge_features x') = (n * n)%nat /\
  (forall t, (t < n)%nat -> nth t (tx_nodes x') None = nth (part p t) (tx_nodes x) None) /\
  (forall a b, (a < n)%nat -> (b < n)%nat ->
     nth (a * n + b) (tx_edges x') None = nth (part p a * n + part p b) (tx_edges x) None /\
     nth (a * n + b) (tx_edge_features x') None = nth (part p a * n + part p b) (tx_edge_features x) None).
(** every node keeps its state *)
Definition same_states (n : nat) (p states : list nat) (x x' : typed_x) (y y' : list Z) : Prop :=
  length y' = length y /\
  forall t i, (t < n)%nat -> (i < x_rows x (part p t))%nat ->
    nth (before (type_rows n x') t + i) y' 0%Z =
    (nth (before (type_rows n x) (part p t) + i) y 0 - Z.of_nat (before states (part p t)) +
     Z.of_nat (before (map (part states) p) t))%Z.

(** every type has a node array, and nothing more *)
Definition full_nodes (n : nat) (x : typed_x) : Prop :=
  length (tx_nodes x) = n /\ Forall (fun o => exists m, o = Some m) (tx_nodes x).
(** a labelling that no other labelling beats *)
Definition best_labelling (g : ty_crf) (x : typed_x) (w : list Qc) (y : list Z) : Prop :=
  let rows := type_rows (length (ty_states g)) x in
  typed_labelling (ty_states g) rows y /\
  forall y', typed_labelling (ty_states g) rows y' -> ty_score g x w y' <= ty_score g x w y.
(** class weighted number of labels of [y] that [y'] has not *)
Definition label_errors (g : ty_crf) (y y' : list Z) : Qc :=
  sumn (length y) (fun i => if (nth i y 0 =? nth i y' 0)%Z then 0 else get1 (ty_class_weight g) (Z.to_nat (nth i y 0%Z))).

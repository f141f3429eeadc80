(** Specification for NodeTypeEdgeFeatureGraphCRF, from its class documentation: node types
    0 .. n-1 with their own numbers of states and features; the weights are, type after type,
    one row of features per state, then, for every pair of types, one table of states x states
    per edge feature; labels are numbered consecutively over the types. *)
From Coq Require Import ZArith.
From Verif Require Export Base.Sums Model.Typed Spec.LossSpec Spec.TaskSpec Spec.Energy.

(** total of the entries before position [t] *)
Definition before (l : list nat) (t : nat) : nat := list_sum (firstn t l).
Definition part (l : list nat) (t : nat) : nat := nth t l O.

(** the number of types agrees in all arguments of the constructor *)
Definition well_typed (g : ty_crf) : Prop :=
  let n := length (ty_states g) in
  (0 < n)%nat /\ length (ty_features g) = n /\
  length (ty_edge_features g) = n /\ Forall (fun r => length r = n) (ty_edge_features g) /\
  (forall i j, (i < n)%nat -> (j < n)%nat ->
     nth j (nth i (ty_edge_features g) []) O = nth i (nth j (ty_edge_features g) []) O) /\
  length (ty_weights g) = n /\
  (forall t, (t < n)%nat -> length (nth t (ty_weights g) []) = part (ty_states g) t).

(** ** Instances; None stands for an array without rows *)
Definition x_rows (x : typed_x) (t : nat) : nat :=
  match nth t (tx_nodes x) None with Some m => mrows m | None => O end.
Definition x_feat (x : typed_x) (t i f : nat) : Qc :=
  match nth t (tx_nodes x) None with Some m => mget m i f | None => 0 end.
Definition x_edges (n : nat) (x : typed_x) (a b : nat) : list (Z * Z) :=
  match nth (a * n + b) (tx_edges x) None with Some e => e | None => [] end.
Definition x_edge_feat (n : nat) (x : typed_x) (a b e f : nat) : Qc :=
  match nth (a * n + b) (tx_edge_features x) None with Some m => mget m e f | None => 0 end.
Definition x_edge_rows (n : nat) (x : typed_x) (a b : nat) : nat :=
  match nth (a * n + b) (tx_edge_features x) None with Some m => mrows m | None => O end.
(** number of nodes of every type *)
Definition type_rows (n : nat) (x : typed_x) : list nat := map (x_rows x) (seq 0 n).

(** one node array per type, one edge array and one edge feature array per pair of types, with
    the announced numbers of columns, edges between existing nodes (surplus node and edge
    feature arrays are ignored) *)
Definition typed_instance (g : ty_crf) (x : typed_x) : Prop :=
  let n := length (ty_states g) in
  (n <= length (tx_nodes x))%nat /\ length (tx_edges x) = (n * n)%nat /\ (n * n <= length (tx_edge_features x))%nat /\
  (forall t m, (t < n)%nat -> nth t (tx_nodes x) None = Some m -> mcols m = part (ty_features g) t) /\
  (forall a b, (a < n)%nat -> (b < n)%nat ->
     Forall (fun e => (0 <= fst e < Z.of_nat (x_rows x a))%Z /\ (0 <= snd e < Z.of_nat (x_rows x b))%Z) (x_edges n x a b) /\
     x_edge_rows n x a b = length (x_edges n x a b) /\
     (forall m, nth (a * n + b) (tx_edge_features x) None = Some m -> mcols m = part (nth a (ty_edge_features g) []) b)).

(** ** Labels *)
(** one label per node, of the node's type *)
Definition typed_labelling (states rows : list nat) (y : list Z) : Prop :=
  length y = list_sum rows /\
  forall t i, (t < length states)%nat -> (i < part rows t)%nat ->
    (Z.of_nat (before states t) <= nth (before rows t + i) y 0%Z < Z.of_nat (before states t + part states t))%Z.
(** the label of node [i] of type [t], counted from 0 *)
Definition typed_lab (states rows : list nat) (y : list Z) (t i : nat) : nat :=
  Z.to_nat (nth (before rows t + i) y 0%Z - Z.of_nat (before states t)).

(** ** Scores *)
(** node scores summed over the types plus edge scores summed over the pairs of types *)
Definition typed_score (n : nat) (rows : nat -> nat) (edges : nat -> nat -> list (Z * Z))
           (U : nat -> nat -> nat -> Qc) (P : nat -> nat -> nat -> nat -> nat -> Qc) (y : nat -> nat -> nat) : Qc :=
  sumn n (fun t => sumn (rows t) (fun i => U t i (y t i))) +
  sumn n (fun a => sumn n (fun b => sumn (length (edges a b)) (fun e =>
    P a b e (y a (Z.to_nat (fst (nth e (edges a b) (0, 0)%Z)))) (y b (Z.to_nat (snd (nth e (edges a b) (0, 0)%Z))))))).

(** first weight of type [t] and of the pair of types [a], [b] *)
Definition node_start (g : ty_crf) (t : nat) : nat :=
  list_sum (map (fun a => part (ty_states g) a * part (ty_features g) a)%nat (seq 0 t)).
Definition pair_size (g : ty_crf) (a b : nat) : nat :=
  (part (nth a (ty_edge_features g) []) b * (part (ty_states g) a * part (ty_states g) b))%nat.
Definition pair_row (g : ty_crf) (a m : nat) : nat := list_sum (map (pair_size g a) (seq 0 m)).
Definition edge_start (g : ty_crf) (a b : nat) : nat :=
  let n := length (ty_states g) in
  (node_start g n + list_sum (map (fun a' => pair_row g a' n) (seq 0 a)) + pair_row g a b)%nat.
Definition weights_size (g : ty_crf) : nat :=
  let n := length (ty_states g) in
  (node_start g n + list_sum (map (fun a => pair_row g a n) (seq 0 n)))%nat.
(** score of state [s] at a node of type [t] with the features [feat] *)
Definition type_score (g : ty_crf) (w : list Qc) (t : nat) (feat : nat -> Qc) (s : nat) : Qc :=
  let F := part (ty_features g) t in
  sumn F (fun f => feat f * get1 w (node_start g t + (s * F + f))).
(** score of states [s], [s'] at an edge from type [a] to type [b] with the features [feat] *)
Definition pair_types_score (g : ty_crf) (w : list Qc) (a b : nat) (feat : nat -> Qc) (s s' : nat) : Qc :=
  let A := part (ty_states g) a in let B := part (ty_states g) b in
  sumn (part (nth a (ty_edge_features g) []) b)
    (fun f => feat f * get1 w (edge_start g a b + (f * (A * B) + (s * B + s')))).
(** score of a flat labelling *)
Definition ty_score (g : ty_crf) (x : typed_x) (w : list Qc) (y : list Z) : Qc :=
  let n := length (ty_states g) in
  typed_score n (x_rows x) (x_edges n x)
    (fun t i s => type_score g w t (x_feat x t i) s)
    (fun a b e s s' => pair_types_score g w a b (x_edge_feat n x a b e) s s')
    (typed_lab (ty_states g) (type_rows n x) y).

(** ** Potentials, and an exact solver *)
(** entry of an array of pairwise potentials; an empty array has no influence *)
Definition pair_entry (p : pairwise) (e s s' : nat) : Qc :=
  match p with
  | Pw3 _ _ _ d => get2 (nth e d []) s s'
  | Pw2 m => mget m s s'
  end.
Definition potentials_score (n : nat) (rows : nat -> nat) (edges : nat -> nat -> list (Z * Z)) (Us : list mat)
           (Ps : list pairwise) (y : nat -> nat -> nat) : Qc :=
  typed_score n rows edges (fun t i s => mget (nth t Us (Mat 0 0 [])) i s)
    (fun a b e s s' => pair_entry (nth (a * n + b) Ps (Pw3 0 0 0 [])) e s s') y.

(** [ums] marks the labelling [y] *)
Definition marks (ums Us : list mat) (y : nat -> nat -> nat) : Prop :=
  length ums = length Us /\
  forall t, (t < length Us)%nat ->
    let m := nth t ums (Mat 0 0 []) in let U := nth t Us (Mat 0 0 []) in
    mat_ok m /\ mrows m = mrows U /\ mcols m = mcols U /\
    forall i, (i < mrows U)%nat -> (y t i < mcols U)%nat /\
      forall s, (s < mcols U)%nat -> mget m i s = if (s =? y t i)%nat then 1 else 0.

(** the answer to the problem (Us, Ps, edges) is a best labelling, marked integral *)
Definition exact_answer (n : nat) (edges : nat -> nat -> list (Z * Z)) (Us : list mat) (Ps : list pairwise)
           (r : res (ad3_answer (list mat))) : Prop :=
  let rows t := mrows (nth t Us (Mat 0 0 [])) in
  exists ums pms energy y,
    r = Ok (ums, pms, energy, Integral) /\ marks ums Us y /\
    forall y', (forall t i, (t < n)%nat -> (i < rows t)%nat -> (y' t i < mcols (nth t Us (Mat 0 0 [])))%nat) ->
      potentials_score n rows edges Us Ps y' <= potentials_score n rows edges Us Ps y.

(** total of [f] over the pairs of types that come before (a, b) *)
Definition pairs_before (f : nat -> nat -> nat) (n a b : nat) : nat :=
  (list_sum (map (fun a' => list_sum (map (f a') (seq 0 n))) (seq 0 a)) + list_sum (map (f a) (seq 0 b)))%nat.

(** ** The learning task *)
(** labels are the labellings that respect the types; the joint feature is that of the code (its
    scores are described by C43); class weighted Hamming loss *)
Definition ty_valid_label (g : ty_crf) (x : typed_x) (y : list nat) : Prop :=
  typed_labelling (ty_states g) (type_rows (length (ty_states g)) x) (map Z.of_nat y).
Definition ty_task (g : ty_crf) : task typed_x (list nat) :=
  Task (ty_valid_label g)
       (fun x y => match ty_joint_feature g x (TDiscrete (map Z.of_nat y)) with Ok v => v | Err _ => [] end)
       (fun y y' => hamming (length y) (get1 (ty_class_weight g)) (lab y) (lab y')).

(** the edges with natural ends, as handed to the solver *)
Definition solver_edges (x : typed_x) : list (list (nat * nat)) :=
  map (fun o => match o with None => [] | Some e => map (fun p => (Z.to_nat (fst p), Z.to_nat (snd p))) e end) (tx_edges x).

(** the installed AD3 library solves the problems of this instance exactly *)
Definition typed_potentials (g : ty_crf) (x : typed_x) (Us : list mat) : Prop :=
  length Us = length (ty_states g) /\
  forall t, (t < length (ty_states g))%nat ->
    mrows (nth t Us (Mat 0 0 [])) = x_rows x t /\ mcols (nth t Us (Mat 0 0 [])) = part (ty_states g) t.
Definition solver_call (lib : ad3_lib) (plus : bool) (Us : list mat) (edges : list (list (nat * nat))) (Ps : list pairwise)
  : res (ad3_answer (list mat)) :=
  if plus then ad3_constraineds lib Us edges Ps VNone (VBool false) else ad3_graphs lib Us edges Ps (VBool false).
Definition exact_typed (lib : ad3_lib) (plus : bool) (g : ty_crf) (x : typed_x) : Prop :=
  let n := length (ty_states g) in
  forall Us Ps, typed_potentials g x Us -> length Ps = (n * n)%nat ->
    exact_answer n (x_edges n x) Us Ps (solver_call lib plus Us (solver_edges x) Ps).

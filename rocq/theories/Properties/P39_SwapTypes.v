(** C78: swap_node_types (examples/plot_hidden_short_snakes_typed.py 219-273). *)
From Coq Require Import String ZArith.
From Verif Require Import Model.SwapTypes Spec.SwapTypesSpec Proofs.SwapTypes Proofs.SwapTypes2 Proofs.SwapTypes4.

(** With a permutation of the types that is its own inverse, the result is the same instance and
    labelling for the model with renumbered types: same nodes, edges, features and states, and the
    same score with the renumbered weights. *)
Theorem C78_swap_involution :
  forall (g : ty_crf) (p : list nat) (x : typed_x) (y : list Z),
    let n := length (ty_states g) in let g' := renumber p g in
    well_typed g -> involution n p -> typed_instance g x -> full_nodes n x -> typed_labelling (ty_states g) (type_rows n x) y ->
    exists x' y', swap_one p (ty_states g) (ty_states g') x y = Ok (x', y') /\
      renumbered n p x x' /\ same_states n p (ty_states g) x x' y y' /\
      well_typed g' /\ typed_instance g' x' /\ typed_labelling (ty_states g') (type_rows n x') y' /\
      (forall t i, (t < n)%nat -> (i < x_rows x (part p t))%nat ->
         typed_lab (ty_states g') (type_rows n x') y' t i = typed_lab (ty_states g) (type_rows n x) y (part p t) i) /\
      forall w, length w = ty_size g -> length (renumber_weights p g w) = ty_size g' /\
        ty_score g' x' (renumber_weights p g w) y' = ty_score g x w y.
Proof. exact swap_main. Qed.
(** The best labellings correspond. *)
Theorem C78_best_labelling :
  forall (g : ty_crf) (p : list nat) (x : typed_x) (y : list Z) (x' : typed_x) (y' : list Z) (w : list Qc),
    let n := length (ty_states g) in
    well_typed g -> involution n p -> typed_instance g x -> full_nodes n x -> typed_labelling (ty_states g) (type_rows n x) y ->
    swap_one p (ty_states g) (ty_states (renumber p g)) x y = Ok (x', y') -> length w = ty_size g ->
    (best_labelling g x w y <-> best_labelling (renumber p g) x' (renumber_weights p g w) y').
Proof. exact swap_best. Qed.
(** The class weighted losses are the same. *)
Theorem C78_losses :
  forall (g : ty_crf) (p : list nat) (x : typed_x) (y z : list Z) (x1 : typed_x) (y' : list Z) (x2 : typed_x) (z' : list Z),
    let n := length (ty_states g) in
    well_typed g -> involution n p -> typed_instance g x -> full_nodes n x ->
    typed_labelling (ty_states g) (type_rows n x) y -> typed_labelling (ty_states g) (type_rows n x) z ->
    swap_one p (ty_states g) (ty_states (renumber p g)) x y = Ok (x1, y') ->
    swap_one p (ty_states g) (ty_states (renumber p g)) x z = Ok (x2, z') ->
    x1 = x2 /\ label_errors (renumber p g) y' z' = label_errors g y z.
Proof. exact swap_errors. Qed.
(** Swapping twice gives everything back. *)
Theorem C78_swap_twice :
  forall (states p : list nat) (x : typed_x) (y : list Z) (x' : typed_x) (y' : list Z),
    let n := length states in
    involution n p -> full_nodes n x -> length (tx_edges x) = (n * n)%nat -> length (tx_edge_features x) = (n * n)%nat ->
    typed_labelling states (type_rows n x) y ->
    swap_one p states (map (part states) p) x y = Ok (x', y') ->
    swap_one p (map (part states) p) states x' y' = Ok (x, y).
Proof. exact swap_twice. Qed.

(** With any other permutation nodes and edges are renumbered, but the labels of type [i] go to the
    nodes that were of type [part p (part p i)] (a single label to all of them). *)
Theorem C78_swap_permutation :
  forall (states p : list nat) (x : typed_x) (y : list Z),
    let n := length states in
    permutes n p -> full_nodes n x -> (n * n <= length (tx_edges x))%nat -> (n * n <= length (tx_edge_features x))%nat ->
    typed_labelling states (type_rows n x) y ->
    (forall i, (i < n)%nat -> x_rows x i = x_rows x (part p (part p i)) \/ x_rows x i = 1%nat) ->
    exists x' y', swap_one p states (map (part states) p) x y = Ok (x', y') /\ renumbered n p x x' /\ full_nodes n x' /\ length y' = length y /\
      forall i c, (i < n)%nat -> (c < x_rows x (part p (part p i)))%nat ->
        nth (before (type_rows n x') (part p i) + c) y' 0%Z =
        (nth (before (type_rows n x) i + (if (x_rows x i =? 1)%nat then 0 else c)) y 0 - Z.of_nat (before states i) +
         Z.of_nat (before (map (part states) p) (part p i)))%Z.
Proof. exact swap_one_ok. Qed.
Theorem C78_swap_permutation_error :
  forall (states states' p : list nat) (x : typed_x) (y : list Z),
    let n := length states in
    permutes n p -> full_nodes n x -> length y = list_sum (type_rows n x) ->
    (exists i, (i < n)%nat /\ ~ (x_rows x i = x_rows x (part p (part p i)) \/ x_rows x i = 1%nat)) ->
    swap_one p states states' x y = Err ValueError.
Proof. exact swap_one_bad. Qed.
(** None instead of a node array, which the model accepts, is refused. *)
Theorem C78_swap_without_features_fails :
  forall (states states' : list nat) (n : nat) (p : list nat) (x : typed_x) (y : list Z) (t : nat),
    permutes n p -> length (tx_nodes x) = n -> nth_error (tx_nodes x) t = Some None ->
    swap_one p states states' x y = Err AttributeError.
Proof. exact swap_one_none. Qed.

(** All instances, without constraints; a permutation with too large entries is refused. *)
Theorem C78_swap_all :
  forall (fuel : nat) (p states : list nat) (lX : list typed_x) (lY : list (list Z)), permutes (length states) p ->
    swap_node_types fuel p states lX lY [] =
    Some (let! l := mapM (fun q => swap_one p states (map (part states) p) (fst q) (snd q)) (combine lX lY) in
          Ok (map fst l, map snd l, None)).
Proof. exact swap_all. Qed.
Theorem C78_bad_entry :
  forall (fuel : nat) (p states : list nat) (lX : list typed_x) (lY : list (list Z)) (cs : list (list typed_constraint)),
    Exists (fun i => (length states <= i)%nat) p -> swap_node_types fuel p states lX lY cs = Some (Err IndexError).
Proof. exact swap_bad_entry. Qed.
(** With constraints the function never returns: the loop appends to the list it runs over. *)
Theorem C78_constraints_refuted :
  forall (fuel : nat) (p states : list nat) (lX : list typed_x) (lY : list (list Z)) (cs : list (list typed_constraint))
         (l : list (typed_x * list Z)),
    permutes (length states) p ->
    mapM (fun q => swap_one p states (map (part states) p) (fst q) (snd q)) (combine lX lY) = Ok l ->
    Forall (Forall (fun c => let '(_, us, ss, ns) := c in
                             length us = length states /\ length ss = length states /\ length ns = length states)) cs ->
    Exists (fun c => c <> []) cs ->
    swap_node_types fuel p states lX lY cs = None.
Proof. exact swap_forever. Qed.
(** If no instance has a constraint it returns, but a single empty list, whatever the number of instances was. *)
Theorem C78_empty_constraint_lists :
  forall (fuel : nat) (p states : list nat) (lX : list typed_x) (lY : list (list Z)) (cs : list (list typed_constraint))
         (l : list (typed_x * list Z)),
    permutes (length states) p ->
    mapM (fun q => swap_one p states (map (part states) p) (fst q) (snd q)) (combine lX lY) = Ok l ->
    cs <> [] -> Forall (fun c => c = []) cs ->
    swap_node_types fuel p states lX lY cs = Some (Ok (map fst l, map snd l, Some [[]])).
Proof. exact swap_empty_lists. Qed.

(** ** Examples *)
(** two nodes of a type with 2 states and one of a type with 3; edges between and within *)
Definition ex39_g : ty_crf := TyCRF [2; 3]%nat [1; 2]%nat [[1; 1]; [1; 0]]%nat [[1; 1]; [1; 1; 1]] "ad3" false.
Definition ex39_x : typed_x :=
  TypedX [Some (Mat 2 1 [[1]; [1 + 1]]); Some (Mat 1 2 [[1; 1]])]
         [Some [(0, 1)%Z]; Some [(1, 0)%Z]; None; None] [Some (Mat 1 1 [[1]]); Some (Mat 1 1 [[1 + 1]]); None; None].
Definition ex39_y : list Z := [1; 0; 4]%Z.
Example ex39_hypotheses :
  well_typed ex39_g /\ involution 2 [1; 0]%nat /\ typed_instance ex39_g ex39_x /\ full_nodes 2 ex39_x /\
  typed_labelling (ty_states ex39_g) (type_rows 2 ex39_x) ex39_y.
Proof.
  split; [|split; [|split; [|split]]].
  - repeat split; simpl; try lia; repeat constructor; try (intros [|[|i]] [|[|j]] ? ?; simpl; lia); intros [|[|t]] H; simpl in *; try lia; reflexivity.
  - split; [reflexivity|]. intros [|[|t]] H; simpl in H; try lia; (split; [unfold part; simpl; lia|reflexivity]).
  - repeat split; simpl; try lia.
    + intros [|[|t]] m H E; simpl in *; try lia; injection E as <-; reflexivity.
    + destruct a as [|[|a]], b as [|[|b]]; simpl in *; try lia; repeat constructor; simpl; lia.
    + destruct a as [|[|a]], b as [|[|b]]; simpl in *; try lia; reflexivity.
    + destruct a as [|[|a]], b as [|[|b]]; simpl in *; try lia; intros m E; try discriminate E; injection E as <-; reflexivity.
  - split; [reflexivity|]. repeat constructor; eexists; reflexivity.
  - split; [reflexivity|]. intros [|[|t]] i Ht Hi; simpl in Ht; try lia; vm_compute in Hi; destruct i as [|[|i]]; try lia;
      (vm_compute; split; [discriminate|reflexivity]).
Qed.
(** the pixel labels move behind the label of the other type *)
Example ex39_swapped :
  swap_one [1; 0]%nat [2; 3]%nat [3; 2]%nat ex39_x ex39_y =
  Ok (TypedX [Some (Mat 1 2 [[1; 1]]); Some (Mat 2 1 [[1]; [1 + 1]])]
             [None; None; Some [(1, 0)%Z]; Some [(0, 1)%Z]] [None; None; Some (Mat 1 1 [[1 + 1]]); Some (Mat 1 1 [[1]])],
      [2; 4; 3]%Z).
Proof. reflexivity. Qed.
Example ex39_renumbered :
  renumber [1; 0]%nat ex39_g = TyCRF [3; 2]%nat [2; 1]%nat [[0; 1]; [1; 1]]%nat [[1; 1; 1]; [1; 1]] "ad3" false.
Proof. reflexivity. Qed.
(** a cycle of three types: the labels are no labels of the nodes that get them, so the claim of the
    documentation ("we permute this as indicated by the permutation") fails *)
Definition ex39_cycle_x : typed_x :=
  TypedX (repeat (Some (Mat 1 0 [[]])) 3) (repeat None 9) (repeat None 9).
Theorem C78_cycle_refuted :
  exists (states p : list nat) (x x' : typed_x) (y y' : list Z),
    let n := length states in
    permutes n p /\ full_nodes n x /\ typed_labelling states (type_rows n x) y /\
    swap_one p states (map (part states) p) x y = Ok (x', y') /\ renumbered n p x x' /\
    ~ typed_labelling (map (part states) p) (type_rows n x') y'.
Proof.
  exists [1; 2; 3]%nat, [1; 2; 0]%nat, ex39_cycle_x, ex39_cycle_x, [0; 1; 5]%Z, [2; 2; 5]%Z. cbv zeta. split; [|split; [|split; [|split; [|split]]]].
  - split; [reflexivity|]. split; [intros [|[|[|t]]] H; simpl in *; try lia; unfold part; simpl; lia|].
    intros [|[|[|s]]] [|[|[|t]]] H1 H2 E; simpl in *; try lia; try reflexivity; discriminate E.
  - split; [reflexivity|]. repeat constructor; eexists; reflexivity.
  - split; [reflexivity|]. intros [|[|[|t]]] i Ht Hi; simpl in Ht; try lia; vm_compute in Hi; destruct i as [|i]; try lia;
      (vm_compute; split; [discriminate|reflexivity]).
  - reflexivity.
  - split; [reflexivity|]. split; [reflexivity|]. split; [reflexivity|]. split.
    + intros [|[|[|t]]] H; simpl in *; try lia; reflexivity.
    + intros [|[|[|a]]] [|[|[|b]]] Ha Hb; simpl in *; try lia; split; reflexivity.
  - intros [_ H]. specialize (H 0%nat 0%nat ltac:(simpl; lia) ltac:(vm_compute; lia)). simpl in H. unfold part in H. simpl in H. lia.
Qed.
(** and when the numbers of nodes differ there is an exception *)
Example ex39_cycle_error :
  swap_one [1; 2; 0]%nat [1; 2; 3]%nat [2; 3; 1]%nat
    (TypedX [Some (Mat 1 0 [[]]); Some (Mat 2 0 [[]; []]); Some (Mat 3 0 [[]; []; []])] (repeat None 9) (repeat None 9)) [0; 1; 2; 3; 4; 5]%Z
  = Err ValueError.
Proof. reflexivity. Qed.
(** a constraint over two types keeps the loop running; no constraint at all is fine *)
Definition ex39_c : typed_constraint := ("XOROUT"%string, [[0; 1]; [0]]%nat, [[1]; [2]]%nat, [[false]; [false]]).
Example ex39_constraints :
  swap_node_types 100 [1; 0]%nat [2; 3]%nat [ex39_x] [ex39_y] [[ex39_c]] = None /\
  (exists l, mapM (fun q => swap_one [1; 0]%nat [2; 3]%nat (map (part [2; 3]%nat) [1; 0]%nat) (fst q) (snd q)) (combine [ex39_x] [ex39_y]) = Ok l) /\
  swap_node_types 0 [1; 0]%nat [2; 3]%nat [ex39_x] [ex39_y] [[]] =
    Some (Ok ([TypedX [Some (Mat 1 2 [[1; 1]]); Some (Mat 2 1 [[1]; [1 + 1]])]
             [None; None; Some [(1, 0)%Z]; Some [(0, 1)%Z]] [None; None; Some (Mat 1 1 [[1 + 1]]); Some (Mat 1 1 [[1]])]],
      [[2; 4; 3]%Z], Some [[]])).
Proof. split; [reflexivity|]. split; [eexists; reflexivity|reflexivity]. Qed.
(** weights of the example: 8 for the nodes, 4 + 6 + 6 for the edges *)
Example ex39_weights :
  map this (renumber_weights [1; 0]%nat ex39_g (map ofN (seq 0 24))) =
  map this (map ofN ([2; 3; 4; 5; 6; 7; 0; 1] ++ seq 18 6 ++ seq 12 6 ++ seq 8 4)%nat) /\ ty_size ex39_g = 24%nat.
Proof. split; vm_compute; reflexivity. Qed.
Print Assumptions C78_swap_involution.
Print Assumptions C78_best_labelling.
Print Assumptions C78_losses.
Print Assumptions C78_swap_twice.
Print Assumptions C78_swap_permutation.
Print Assumptions C78_swap_permutation_error.
Print Assumptions C78_swap_without_features_fails.
Print Assumptions C78_swap_all.
Print Assumptions C78_bad_entry.
Print Assumptions C78_constraints_refuted.
Print Assumptions C78_cycle_refuted.
Print Assumptions C78_empty_constraint_lists.

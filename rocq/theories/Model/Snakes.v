(** Model of the feature extraction of examples/plot_snakes.py (used by all snake examples). *)
From Coq Require Import ZArith.
From Verif Require Export Model.Grid.

(** ** 3-d arrays of shape (h, w, c) *)
Record arr3 := Arr3 { a_h : nat; a_w : nat; a_c : nat; a_dat : list (list (list Qc)) }.
Definition aget (a : arr3) (i j c : nat) : Qc := get1 (nth j (nth i (a_dat a) []) []) c.
Definition atab (h w c : nat) (f : nat -> nat -> nat -> Qc) : arr3 :=
  Arr3 h w c (map (fun i => map (fun j => tab1 c (f i j)) (seq 0 w)) (seq 0 h)).

(** ** one_hot_colors, plot_snakes.py 47-51 *)
Definition color_classes : list nat := [1; 2; 3; 4; 6]%nat.
Definition is_int (q : Qc) : bool := Pos.eqb (Qden q) 1.
(** x / 255, then the scalar product with 1, 2, 4 *)
Definition color_code (x : arr3) (i j : nat) : Qc :=
  sumn 3 (fun c => aget x i j c / ofN 255 * ofN (2 ^ c)).
(** label_binarize refuses an empty array and values that are not integers; the reshapes fail
    when the last dimension is not 3 *)
Definition one_hot_colors (x : arr3) : res arr3 :=
  if ((a_h x * a_w x =? 0) || negb (a_c x =? 3))%nat then Err ValueError
  else
    let! _ := ensure (forallb (fun i => forallb (fun j => is_int (color_code x i j)) (seq 0 (a_w x))) (seq 0 (a_h x))) ValueError in
    Ok (atab (a_h x) (a_w x) 5 (fun i j c => ind (Qceqb (color_code x i j) (ofN (nth c color_classes O))))).

(** ** neighborhood_feature, 54-70 *)
(** features[.., .., :, slot] = x[.., .., :], where pixel (i, j) receives pixel (i + di, j + dj) if
    there is one; a single channel would be broadcast *)
Definition patch := nat -> nat -> nat -> nat -> Qc.
Definition set_slot (x : arr3) (f : patch) (a : nat * (Z * Z)) : patch :=
  fun i j c s =>
    let '(slot, (di, dj)) := a in
    let i' := (Z.of_nat i + di)%Z in let j' := (Z.of_nat j + dj)%Z in
    if (s =? slot)%nat && ((0 <=? i') && (i' <? Z.of_nat (a_h x)) && ((0 <=? j') && (j' <? Z.of_nat (a_w x))))%Z
    then aget x (Z.to_nat i') (Z.to_nat j') (if (a_c x =? 1)%nat then O else c)
    else f i j c s.
(** lines 61-69, in this order *)
Definition slots : list (nat * (Z * Z)) :=
  [(0%nat, (-1, -1)); (1%nat, (0, -1)); (2%nat, (1, -1)); (3%nat, (-1, 0)); (4%nat, (1, 1)); (5%nat, (1, 0)); (6%nat, (-1, 1));
   (7%nat, (0, 1)); (8%nat, (0, 0))]%Z.
Definition neighborhood_feature (x : arr3) : res mat :=
  let! _ := ensure ((a_c x =? 5) || (a_c x =? 1))%nat ValueError in
  (* position 3 is background *)
  let start : patch := fun _ _ c _ => ind (c =? 3)%nat in
  let f := fold_left (set_slot x) slots start in
  let n := (a_h x * a_w x)%nat in
  let! _ := ensure (negb (n =? 0)%nat) ValueError in         (* reshape(0, -1) *)
  Ok (mtab n 45 (fun p col => f (p / a_w x) (p mod a_w x) (col / 9) (col mod 9))%nat).

(** ** prepare_data, 73-99, for one picture *)
(** edge_features[e, :, 0 and 1] for horizontal edges, [.., 2 and 3] for vertical ones *)
Definition snake_edge_features (features : mat) (rt dn : list (nat * nat)) : res mat :=
  let edges := rt ++ dn in
  let! _ := ensure (forallb (fun e => (fst e <? mrows features) && (snd e <? mrows features))%nat edges) IndexError in
  let! _ := ensure (negb (length edges =? 0)%nat) ValueError in   (* reshape(0, -1) *)
  Ok (mtab (length edges) (mcols features * 4) (fun e col =>
        let '(a, b) := nth e edges (0, 0)%nat in
        let f := (col / 4)%nat in let slot := (col mod 4)%nat in
        let first := if (e <? length rt)%nat then 0%nat else 2%nat in
        if (slot =? first)%nat then mget features a f
        else if (slot =? first + 1)%nat then mget features b f else 0)).
Definition prepare_picture (x : arr3) : res (ef_x * ef_x) :=
  let! l := make_grid_edge_lists (a_h x) (a_w x) 4 in
  match l with
  | [rt; dn] =>
      let! features := neighborhood_feature x in
      let! directions := edge_list_to_features [rt; dn] in
      let! edge_features := snake_edge_features features rt dn in
      Ok (EFX features (rt ++ dn) directions, EFX features (rt ++ dn) edge_features)
  | _ => Err ValueError
  end.
(** the two lists of instances *)
Definition prepare_data (X : list arr3) : res (list ef_x * list ef_x) :=
  let! r := mapM prepare_picture X in Ok (map fst r, map snd r).

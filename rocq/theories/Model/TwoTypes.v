(** Model of examples/plot_hidden_short_snakes_typed.py, lines 120-217 and 275-325, and of the constraint builders of
    plot_snakes_constraints.py and plot_hidden_snakes.py: instances with pixel nodes and one picture node. *)
From Coq Require Import String ZArith.
From Verif Require Export Model.HiddenSnakes Model.SwapTypes.

(** ** prepare_picture_data, 120-152 *)
(** np.where(a_hot_picture[...,c] == 1) *)
Definition lit_cells (p : arr3) (c : nat) : list (nat * nat) :=
  filter (fun ij => Qceqb (aget p (fst ij) (snd ij) c) 1) (list_prod (seq 0 (a_h p)) (seq 0 (a_w p))).
Definition picture_features (p : arr3) : res mat :=
  let! _ := ensure (5 <=? a_c p)%nat IndexError in
  let counts := map (fun c => length (lit_cells p c)) (seq 0 5) in
  let l := cells p in
  let! i1 := max_of (map fst l) in
  let! i0 := min_of (map fst l) in
  let! j1 := max_of (map snd l) in
  let! j0 := min_of (map snd l) in
  let feat := counts ++ [i1 - i0; j1 - j0]%nat in
  Ok (mtab 1 7 (fun _ f => ofN (nth f feat O))).
Definition prepare_picture_data (X : list arr3) : res (list mat) := mapM picture_features X.

(** ** makeItEasy, 319-325: X[0] = y on the array; zip leaves surplus arrays alone *)
Definition set_first_row (m : mat) (y : Qc) : res mat :=
  let! _ := ensure (0 <? mrows m)%nat IndexError in
  Ok (mtab (mrows m) (mcols m) (fun i f => if (i =? 0)%nat then y else mget m i f)).
Fixpoint makeItEasy (lX : list mat) (lY : list Z) : res (list mat) :=
  match lX, lY with
  | m :: lX', y :: lY' =>
      let! m' := set_first_row m (ofZ y) in
      let! r := makeItEasy lX' lY' in
      Ok (m' :: r)
  | _, _ => Ok lX
  end.

(** ** convertToTwoType, 154-217 *)
Definition lab_ravel (y : lab2) : list nat :=
  map (fun ij => lget y (fst ij) (snd ij)) (list_prod (seq 0 (l_h y)) (seq 0 (l_w y))).
Definition z_edges (es : list (nat * nat)) : list (Z * Z) := map (fun e => (Z.of_nat (fst e), Z.of_nat (snd e))) es.
(** one pass of the loop: hot picture, pixel instance, pixel labels, picture features and label *)
Definition two_types (nCell : nat) (x : arr3) (d : ef_x) (lbl : lab2) (pf : mat) (pl : Z) : res (typed_x * list Z) :=
  let n := mrows (ex_features d) in
  let pixel_pict := map (fun k => (Z.of_nat k, 0%Z)) (seq 0 n) in
  let! features := neighborhood_feature x in
  Ok (TypedX [Some (ex_features d); Some pf]
             [Some (z_edges (ex_edges d)); Some pixel_pict; None; None]
             [Some (ex_edge_features d); Some features; None; None],
      (map Z.of_nat (lab_ravel lbl) ++ [pl + Z.of_nat nCell + 1]%Z)%list).
Definition convertToTwoType (nCell : nat) (X : list arr3) (D : list ef_x) (Y : list lab2) (PF : list mat) (PL : list Z)
  : res (list typed_x * list (list Z)) :=
  let! r := mapM (fun q => let '(x, d, lbl, pf, pl) := q in two_types nCell x d lbl pf pl)
                 (combine (combine (combine (combine X D) Y) PF) PL) in
  Ok (map fst r, map snd r).

(** ** Constraints *)
(** operator and, per type, the nodes, their common state and whether they are negated *)
Definition scalar_constraint : Type := (string * list (list nat * option nat * option bool))%type.
(** the node arrays of an instance, unpacked into two names; len(None) raises *)
Definition two_nodes (x : typed_x) : res (nat * nat) :=
  match tx_nodes x with
  | [Some a; Some b] => Ok (mrows a, mrows b)
  | [None; _] => Err TypeError
  | [Some a; None] => Ok (mrows a, O)
  | _ => Err ValueError
  end.
(** listConstraints, 275-296 *)
Definition snake_constraints (ncell n : nat) : list scalar_constraint :=
  ("ANDOUT"%string, [(seq 0 n, Some O, Some false); ([O], Some O, Some false)]) ::
  map (fun s => ("XOROUT"%string, [(seq 0 n, Some s, Some false); ([O], Some 1%nat, Some false)])) (seq 1 ncell).
Definition listConstraints (ncell : nat) (lX : list typed_x) : res (list (list scalar_constraint)) :=
  mapM (fun x => let! n := two_nodes x in Ok (snake_constraints ncell (fst n))) lX.
(** listConstraints_ATMOSTONE, 298-317 *)
Definition atmostone_constraints (ncell n : nat) : list scalar_constraint :=
  map (fun s => ("ATMOSTONE"%string, [(seq 0 n, Some s, Some false); ([], None, None)])) (seq 1 ncell).
Definition listConstraints_ATMOSTONE (ncell : nat) (lX : list typed_x) : res (list (list scalar_constraint)) :=
  mapM (fun x => let! n := two_nodes x in Ok (atmostone_constraints ncell (fst n))) lX.
(** plot_snakes_constraints.py 113-131, with [top] = 10, and plot_hidden_snakes.py 293-311, with [top] = NCELL + 1; a
    single type *)
Definition buildConstraints (bOne : bool) (top : nat) (X : list ef_x) : list (list scalar_constraint) :=
  map (fun x => map (fun i => ((if bOne then "XOR" else "ATMOSTONE")%string,
                               [(seq 0 (mrows (ex_features x)), Some i, Some false)])) (seq 1 (top - 1))) X.

(** Model of examples/plot_hidden_snakes.py, lines 62-205: looking for snakes in one-hot pictures, distorting and shortening them.
    numpy.random / random draws are arbitrary numbers. *)
From Coq Require Import ZArith.
From Verif Require Export Model.Snakes.

(** a[z] on an axis of length [n]: negative indices count from the end *)
Definition wrap (n : nat) (z : Z) : res nat :=
  if ((0 <=? z) && (z <? Z.of_nat n))%Z then Ok (Z.to_nat z)
  else if ((- Z.of_nat n <=? z) && (z <? 0))%Z then Ok (Z.to_nat (z + Z.of_nat n))
  else Err IndexError.
(** np.where(a_hot_picture[i,j,:]==1)[0][0], lines 88, 95 *)
Definition color_index (p : arr3) (i j : Z) : res nat :=
  let! i' := wrap (a_h p) i in
  let! j' := wrap (a_w p) j in
  match find (fun c => Qceqb (aget p i' j' c) 1) (seq 0 (a_c p)) with
  | Some c => Ok c
  | None => Err IndexError
  end.
(** di, dj of lines 91-92; adding None raises TypeError *)
Definition direction (c : nat) : res (Z * Z) :=
  match c with
  | 0 => Ok (-1, 0)%Z
  | 1 => Ok (1, 0)%Z
  | 2 => Ok (0, 1)%Z
  | 3 => Err TypeError
  | 4 => Ok (0, -1)%Z
  | _ => Err IndexError
  end%nat.

(** ** walkThruSnake, 80-100; the loop appends once per round, so [nCell - 1] rounds are enough *)
Definition same_cell (a b : Z * Z) : bool := ((fst a =? fst b) && (snd a =? snd b))%Z.
Fixpoint walk (rounds : nat) (p : arr3) (i j : Z) (c : nat) (lij : list (Z * Z)) : res (list (Z * Z)) :=
  match rounds with
  | O => Ok lij
  | S rounds =>
      let! d := direction c in
      let i' := (i + fst d)%Z in let j' := (j + snd d)%Z in
      let! c' := color_index p i' j' in
      if (c' =? 3)%nat then Ok lij
      else if existsb (same_cell (i', j')) lij then Ok lij
      else walk rounds p i' j' c' (lij ++ [(i', j')])
  end.
Definition walkThruSnake (p : arr3) (i j : Z) (nCell : nat) : res (list (Z * Z)) :=
  let! c := color_index p i j in walk (nCell - 1) p i j c [].

(** ** isSnakePresent, 62-78 *)
(** np.where(a_hot_picture[...,3] != 1): rows first *)
Definition cells (p : arr3) : list (nat * nat) :=
  filter (fun ij => negb (Qceqb (aget p (fst ij) (snd ij) 3) 1)) (list_prod (seq 0 (a_h p)) (seq 0 (a_w p))).
Fixpoint any_snake (p : arr3) (nCell : nat) (l : list (nat * nat)) : res bool :=
  match l with
  | [] => Ok false
  | (i, j) :: l =>
      let! lij := walkThruSnake p (Z.of_nat i) (Z.of_nat j) nCell in
      if (length lij + 1 =? nCell)%nat then Ok true else any_snake p nCell l
  end.
Definition isSnakePresent (p : arr3) (nCell : nat) : res bool :=
  let! _ := ensure (4 <=? a_c p)%nat IndexError in any_snake p nCell (cells p).

(** ** changeOneSnakeCell, 102-126, and distortSnake, 128-150 (bDOCUMENT is False) *)
Definition pixel_neq (p : arr3) (a b : nat * nat) : bool :=
  existsb (fun c => negb (Qceqb (aget p (fst a) (snd a) c) (aget p (fst b) (snd b) c))) (seq 0 (a_c p)).
Definition copy_pixel (p : arr3) (a b : nat * nat) : arr3 :=
  atab (a_h p) (a_w p) (a_c p) (fun i j c =>
    if ((i =? fst a) && (j =? snd a))%nat then aget p (fst b) (snd b) c else aget p i j c).
(** the ten attempts of lines 117-122 *)
Fixpoint attempts (p : arr3) (l : list (nat * nat)) (a : nat * nat) (draws : list nat) : res arr3 :=
  match draws with
  | [] => Ok p
  | d :: draws =>
      let! b := index l d in
      if pixel_neq p a b then Ok (copy_pixel p a b) else attempts p l a draws
  end.
(** [draws]: the values of random.randint(0, nCell - 1), the first one for iChange *)
Definition changeOneSnakeCell (p : arr3) (bOneHot : bool) (nCell : nat) (draws : nat -> nat) : res arr3 :=
  let! hot := if bOneHot then let! _ := ensure (4 <=? a_c p)%nat IndexError in Ok p else one_hot_colors p in
  let l := cells hot in
  let! _ := ensure (length l =? nCell)%nat AssertionError in
  let! _ := ensure (negb (nCell =? 0)%nat) ValueError in           (* randint(0, -1) *)
  let! a := index l (draws O) in
  attempts p l a (map draws (seq 1 10)).

(** ** augmentWithNoSnakeImages, 165-196 *)
(** labels of a picture *)
Record lab2 := Lab2 { l_h : nat; l_w : nat; l_dat : list (list nat) }.
Definition lget (y : lab2) (i j : nat) : nat := nth j (nth i (l_dat y) []) O.
Definition ltab (h w : nat) (f : nat -> nat -> nat) : lab2 :=
  Lab2 h w (map (fun i => map (f i) (seq 0 w)) (seq 0 h)).
Definition zeros_like (y : lab2) : lab2 := ltab (l_h y) (l_w y) (fun _ _ => O).
(** l extended iMult times *)
Fixpoint copies {A} (n : nat) (l : list A) : list A :=
  match n with O => [] | S n => l ++ copies n l end.
(** np.copy and distortSnake of the k-th copy *)
Fixpoint distort_all (bOneHot : bool) (nCell : nat) (draws : nat -> nat -> nat) (k : nat) (X : list arr3) : res (list arr3) :=
  match X with
  | [] => Ok []
  | x :: X =>
      let! x' := changeOneSnakeCell x bOneHot nCell (draws k) in
      let! X' := distort_all bOneHot nCell draws (S k) X in Ok (x' :: X')
  end.
(** lines 183-193: isSnakePresent is called with its default nCell=10 *)
Fixpoint keep_without (bOneHot : bool) (XY : list (arr3 * lab2)) : res (list (arr3 * lab2)) :=
  match XY with
  | [] => Ok []
  | (x, y) :: XY =>
      let! hot := if bOneHot then Ok x else one_hot_colors x in
      let! b := isSnakePresent hot 10 in
      let! r := keep_without bOneHot XY in
      Ok (if b then r else (x, zeros_like y) :: r)
  end.
Definition augmentWithNoSnakeImages (X : list arr3) (Y : list lab2) (bOneHot : bool) (iMult nCell : nat)
           (draws : nat -> nat -> nat) : res (nat * list arr3 * list lab2) :=
  let! X' := distort_all bOneHot nCell draws 0 (copies iMult X) in
  let! new := keep_without bOneHot (combine X' (copies iMult Y)) in
  Ok (length new, X ++ map fst new, Y ++ map snd new).

(** ** shorten_snakes, 203-220, for one picture *)
(** start and number of elements of a slice [lo:hi] of an axis of length [n] *)
Definition clip (n : nat) (z : Z) : nat :=
  Z.to_nat (Z.min (Z.of_nat n) (if (z <? 0)%Z then Z.max 0 (z + Z.of_nat n) else z)).
Definition slice_len (n : nat) (lo hi : Z) : nat := (clip n hi - clip n lo)%nat.
Definition acrop (x : arr3) (i0 i1 j0 j1 : Z) : arr3 :=
  atab (slice_len (a_h x) i0 i1) (slice_len (a_w x) j0 j1) (a_c x)
    (fun i j c => aget x (clip (a_h x) i0 + i) (clip (a_w x) j0 + j) c).
Definition lcrop (y : lab2) (i0 i1 j0 j1 : Z) : lab2 :=
  ltab (slice_len (l_h y) i0 i1) (slice_len (l_w y) j0 j1) (fun i j => lget y (clip (l_h y) i0 + i) (clip (l_w y) j0 + j)).
Definition labelled (y : lab2) : list (nat * nat) :=
  filter (fun ij => negb (lget y (fst ij) (snd ij) =? 0)%nat) (list_prod (seq 0 (l_h y)) (seq 0 (l_w y))).
Definition min_of (l : list nat) : res nat :=
  match l with [] => Err ValueError | a :: l => Ok (fold_left Nat.min l a) end.
Definition max_of (l : list nat) : res nat :=
  match l with [] => Err ValueError | a :: l => Ok (fold_left Nat.max l a) end.
Definition shorten_snake (N : nat) (x : arr3) (y : lab2) : res (arr3 * lab2) :=
  let! _ := ensure ((a_h x =? l_h y) && (a_w x =? l_w y))%nat AssertionError in
  let! _ := ensure (negb (a_h x * a_w x =? 0)%nat) IndexError in      (* X[0,0,:] *)
  let x' := atab (a_h x) (a_w x) (a_c x) (fun i j c => if (N <? lget y i j)%nat then aget x 0 0 c else aget x i j c) in
  let y' := ltab (l_h y) (l_w y) (fun i j => if (N <? lget y i j)%nat then O else lget y i j) in
  let l := labelled y' in
  let! i0 := min_of (map fst l) in
  let! i1 := max_of (map fst l) in
  let! j0 := min_of (map snd l) in
  let! j1 := max_of (map snd l) in
  let lo n := (Z.of_nat n - 1)%Z in let hi n := (Z.of_nat n + 2)%Z in
  Ok (acrop x' (lo i0) (hi i1) (lo j0) (hi j1), lcrop y' (lo i0) (hi i1) (lo j0) (hi j1)).
Definition shorten_snakes (N : nat) (X : list arr3) (Y : list lab2) : res (list arr3 * list lab2) :=
  let! r := mapM (fun xy => shorten_snake N (fst xy) (snd xy)) (combine X Y) in Ok (map fst r, map snd r).

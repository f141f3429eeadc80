(** Specification of snakes: cells whose colours are arrows, followed from cell to cell. *)
From Coq Require Import ZArith.
From Verif Require Export Model.HiddenSnakes Spec.SnakesSpec.

(** every pixel shows exactly one of the five colours *)
Definition one_hot_picture (p : arr3) : Prop :=
  a_c p = 5%nat /\
  forall i j, (i < a_h p)%nat -> (j < a_w p)%nat ->
    exists c, (c < 5)%nat /\ aget p i j c = 1 /\ forall c', (c' < 5)%nat -> c' <> c -> aget p i j c' <> 1.
(** not background (channel 3) *)
Definition coloured (p : arr3) (a : nat * nat) : Prop :=
  (fst a < a_h p)%nat /\ (snd a < a_w p)%nat /\ aget p (fst a) (snd a) 3 <> 1.
(** the border of the picture is background *)
Definition framed (p : arr3) : Prop :=
  forall i j, (i < a_h p)%nat -> (j < a_w p)%nat ->
    i = 0%nat \/ j = 0%nat \/ S i = a_h p \/ S j = a_w p -> aget p i j 3 = 1.
(** the colour of the first cell points at the second cell: up, down, right, left *)
Inductive points (p : arr3) : nat * nat -> nat * nat -> Prop :=
| points_up i j : aget p (S i) j 0 = 1 -> points p (S i, j) (i, j)
| points_down i j : aget p i j 1 = 1 -> points p (i, j) (S i, j)
| points_right i j : aget p i j 2 = 1 -> points p (i, j) (i, S j)
| points_left i j : aget p i (S j) 4 = 1 -> points p (i, S j) (i, j).
(** coloured cells, each pointing at the next one *)
Inductive arrows (p : arr3) : list (nat * nat) -> Prop :=
| arrows_one a : coloured p a -> arrows p [a]
| arrows_more a b l : coloured p a -> points p a b -> arrows p (b :: l) -> arrows p (a :: b :: l).
(** a snake of [n] cells; a closed loop of [n] cells *)
Definition has_snake (p : arr3) (n : nat) : Prop := exists l, length l = n /\ NoDup l /\ arrows p l.
Definition has_loop (p : arr3) (n : nat) : Prop :=
  exists a l, length (a :: l) = n /\ NoDup (a :: l) /\ arrows p (a :: l ++ [a]).

(** the pictures differ only in pixel [a], which has the colour of pixel [b] *)
Definition recoloured (p q : arr3) (a b : nat * nat) : Prop :=
  a_h q = a_h p /\ a_w q = a_w p /\ a_c q = a_c p /\
  forall i j c, (i < a_h p)%nat -> (j < a_w p)%nat -> (c < a_c p)%nat ->
    aget q i j c = if ((i =? fst a) && (j =? snd a))%nat then aget p (fst b) (snd b) c else aget p i j c.
Definition same_picture (p q : arr3) : Prop :=
  a_h q = a_h p /\ a_w q = a_w p /\ a_c q = a_c p /\
  forall i j c, (i < a_h p)%nat -> (j < a_w p)%nat -> (c < a_c p)%nat -> aget q i j c = aget p i j c.
(** the one-hot version of a picture *)
Definition shown (bOneHot : bool) (x hot : arr3) : Prop := if bOneHot then hot = x else one_hot_colors x = Ok hot.
(** exactly [n] coloured cells *)
Definition coloured_count (p : arr3) (n : nat) : Prop :=
  exists l, NoDup l /\ length l = n /\ forall a, In a l <-> coloured p a.
(** an input of augmentWithNoSnakeImages *)
Definition snake_picture (bOneHot : bool) (nCell : nat) (x hot : arr3) : Prop :=
  shown bOneHot x hot /\ one_hot_picture hot /\ framed hot /\ coloured_count hot nCell.
Definition same_colour (p : arr3) (a b : nat * nat) : Prop :=
  forall c, (c < a_c p)%nat -> aget p (fst a) (snd a) c = aget p (fst b) (snd b) c.
(** a distorted picture: at most one coloured cell got the colour of another one *)
Definition changed (b : bool) (n : nat) (x hot x' hot' : arr3) : Prop :=
  snake_picture b n x' hot' /\
  (x' = x /\ hot' = hot \/
   exists a c, coloured hot a /\ coloured hot c /\ recoloured x x' a c /\ recoloured hot hot' a c /\ ~ same_colour x a c).
Definition all_zero (y y' : lab2) : Prop :=
  l_h y' = l_h y /\ l_w y' = l_w y /\ forall i j, (i < l_h y)%nat -> (j < l_w y)%nat -> lget y' i j = 0%nat.

(** smallest and largest row (or column) of the cells with labels 1 .. N *)
Definition kept_label (N : nat) (y : lab2) (i j : nat) : Prop :=
  (i < l_h y)%nat /\ (j < l_w y)%nat /\ (1 <= lget y i j <= N)%nat.
Definition row_range (N : nat) (y : lab2) (lo hi : nat) : Prop :=
  (exists j, kept_label N y lo j) /\ (exists j, kept_label N y hi j) /\ forall i j, kept_label N y i j -> (lo <= i <= hi)%nat.
Definition col_range (N : nat) (y : lab2) (lo hi : nat) : Prop :=
  (exists i, kept_label N y i lo) /\ (exists i, kept_label N y i hi) /\ forall i j, kept_label N y i j -> (lo <= j <= hi)%nat.
(** what is left of a picture when labels above [N] are erased *)
Definition erased_pixel (N : nat) (x : arr3) (y : lab2) (i j c : nat) : Qc :=
  if (N <? lget y i j)%nat then aget x 0 0 c else aget x i j c.
Definition erased_label (N : nat) (y : lab2) (i j : nat) : nat :=
  if (N <? lget y i j)%nat then 0%nat else lget y i j.
(** first row (or column) of the crop: one before the first kept one; index -1, the last one, when that is the first of the picture *)
Definition crop_start (n lo : nat) : nat := if (lo =? 0)%nat then (n - 1)%nat else (lo - 1)%nat.

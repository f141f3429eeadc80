(** Specification of the snake features: what a colour, a patch and an edge of a picture are,
    without the way they are computed. *)
From Coq Require Import ZArith.
From Verif Require Export Model.Snakes Spec.GridSpec Spec.EdgeSpec.

(** every colour value is 0 or 255 *)
Definition pure_colours (x : arr3) : Prop :=
  forall i j c, (i < a_h x)%nat -> (j < a_w x)%nat -> (c < 3)%nat -> aget x i j c = 0 \/ aget x i j c = ofN 255.
Definition lit (x : arr3) (i j c : nat) : bool := Qceqb (aget x i j c) (ofN 255).
(** the channel of red, green, yellow, blue (the background) and cyan; other colours have none *)
Definition colour_channel (red green blue : bool) : option nat :=
  match red, green, blue with
  | true, false, false => Some 0%nat
  | false, true, false => Some 1%nat
  | true, true, false => Some 2%nat
  | false, false, true => Some 3%nat
  | false, true, true => Some 4%nat
  | _, _, _ => None
  end.
Definition is_channel (o : option nat) (c : nat) : bool :=
  match o with Some c' => (c' =? c)%nat | None => false end.

(** the neighbour whose channels stand at position [s] of a patch: rows and columns away *)
Definition patch_offset (s : nat) : Z * Z :=
  (match s with
   | 0%nat => (-1, -1) | 1%nat => (0, -1) | 2%nat => (1, -1) | 3%nat => (-1, 0) | 4%nat => (1, 1)
   | 5%nat => (1, 0) | 6%nat => (-1, 1) | 7%nat => (0, 1) | _ => (0, 0)
   end)%Z.
(** channel [c] of the pixel [o] away from (i, j); outside there is background (channel 3) *)
Definition pixel_at (x : arr3) (i j : nat) (o : Z * Z) (c : nat) : Qc :=
  let i' := (Z.of_nat i + fst o)%Z in let j' := (Z.of_nat j + snd o)%Z in
  if ((0 <=? i') && (i' <? Z.of_nat (a_h x)) && ((0 <=? j') && (j' <? Z.of_nat (a_w x))))%Z
  then aget x (Z.to_nat i') (Z.to_nat j') c else ind (c =? 3)%nat.

(** first of the two columns of an edge: horizontal edges have 0 and 1, vertical ones 2 and 3 *)
Definition edge_column (w : nat) (e : nat * nat) : nat :=
  if (row_dist w (fst e) (snd e) =? 0)%nat then 0%nat else 2%nat.

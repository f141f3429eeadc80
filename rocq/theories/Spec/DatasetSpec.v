(** What the synthetic data sets are meant to contain. *)
From Verif Require Export Spec.GridSpec Model.Datasets.

(** label of the pixel in row i and column j; channel k of the same pixel *)
Definition pixel (w : nat) (y : list nat) (i j : nat) : nat := nth (i * w + j) y O.
Definition channel (x : grid_x) (i j k : nat) : Qc := get1 (gr_data x) ((i * gr_w x + j) * gr_c x + k).
Definition shaped (h w c : nat) (xy : grid_x * list nat) : Prop :=
  gr_h (fst xy) = h /\ gr_w (fst xy) = w /\ gr_c (fst xy) = c /\ length (gr_data (fst xy)) = (h * w * c)%nat /\ length (snd xy) = (h * w)%nat.
(** the sample has the labels [f] *)
Definition labelled (h w : nat) (xy : grid_x * list nat) (f : nat -> nat -> nat) : Prop :=
  forall i j, (i < h)%nat -> (j < w)%nat -> pixel w (snd xy) i j = f i j.
(** the channel of the label is the only largest one at every pixel *)
Definition separable (h w c : nat) (xy : grid_x * list nat) : Prop :=
  forall i j k, (i < h)%nat -> (j < w)%nat -> (k < c)%nat -> k <> pixel w (snd xy) i j ->
  (pixel w (snd xy) i j < c)%nat /\ channel (fst xy) i j k < channel (fst xy) i j (pixel w (snd xy) i j).
(** X shows a code of the labels in which at most [n] pixels were replaced by some value below [v] *)
Definition noisy_view (h w c v n : nat) (base : nat -> nat) (codes : nat -> list nat) (xy : grid_x * list nat) : Prop :=
  exists (flipped : list (nat * nat)) (f : nat -> nat -> nat),
    (length flipped <= n)%nat /\
    (forall i j, (i < h)%nat -> (j < w)%nat -> f i j = base (pixel w (snd xy) i j) \/ In (i, j) flipped /\ (f i j < v)%nat) /\
    (forall i j k, (i < h)%nat -> (j < w)%nat -> (k < c)%nat -> channel (fst xy) i j k = if existsb (Nat.eqb k) (codes (f i j)) then 1 else 0).

(** boxes and crosses, by their upper left corner *)
Definition in_box (height width t l i j : nat) : bool := (t <=? i)%nat && (i <? t + height)%nat && ((l <=? j)%nat && (j <? l + width)%nat).
Definition in_cross (t l i j : nat) : bool :=
  (i =? t + 1)%nat && ((l <=? j)%nat && (j <? l + 3)%nat) || (j =? l + 1)%nat && ((t <=? i)%nat && (i <? t + 3)%nat).
Definition is_centre (t l i j : nat) : bool := (i =? t + 1)%nat && (j =? l + 1)%nat.
(** the last cross on a pixel decides *)
Definition cross_label (arm centre : nat) (ps : list (nat * nat)) (i j : nat) : nat :=
  match find (fun p => in_cross (fst p) (snd p) i j) (rev ps) with
  | None => O
  | Some p => if is_centre (fst p) (snd p) i j then centre else arm
  end.
Definition far_apart (k : nat) (p q : nat * nat) : Prop := (k < dist (fst p) (fst q) \/ k < dist (snd p) (snd q))%nat.
(** every position is far from the one before *)
Fixpoint spread (k : nat) (ps : list (nat * nat)) : Prop :=
  match ps with
  | p :: (q :: _) as r => far_apart k p q /\ spread k r
  | _ => True
  end.
(** in every stretch of [fuel] pairs of draws every pair of residues occurs *)
Definition fair (fuel m : nat) (s : nat -> nat) : Prop :=
  forall p a b, (a < m)%nat -> (b < m)%nat -> exists q, (q < fuel)%nat /\ (s (p + 2 * q) mod m = a)%nat /\ (s (p + 2 * q + 1) mod m = b)%nat.
(** a 3 x 3 box with a cross and a centre in it; five pixels of an x *)
Definition nested (t l i j : nat) : nat :=
  if is_centre t l i j then 3%nat else if in_cross t l i j then 2%nat else if in_box 3 3 t l i j then 1%nat else 0%nat.
Definition in_x (t l i j : nat) : bool :=
  existsb (fun p => (i =? t + fst p) && (j =? l + snd p))%nat [(1, 1); (2, 2); (3, 3); (1, 3); (3, 1)]%nat.
Definition half : Qc := Q2Qc (1 # 2).
(** [n] crosses with corners from 1 to hi - 1, consecutive ones far apart *)
Definition within_range (hi : nat) (p : nat * nat) : Prop := (1 <= fst p < hi)%nat /\ (1 <= snd p < hi)%nat.
Definition cross_spec (size hi : nat) (arm centre n : nat) (xy : grid_x * list nat) : Prop :=
  exists ps, length ps = n /\ Forall (within_range hi) ps /\ spread 2 ps /\ labelled size size xy (cross_label arm centre ps).
(** one or two bars, the second drawn over the first *)
Definition bar_label (v bars : nat) (b : bool * (nat * nat)) (i j : nat) (under : nat) : nat :=
  let '(vertical, (t, l)) := b in
  if vertical then (if in_box bars 1 t l i j then v else under) else (if in_box 1 bars t l i j then 1%nat else under).
Definition bar_ok (bars total : nat) (b : bool * (nat * nat)) : Prop :=
  (1 <= fst (snd b) /\ fst (snd b) + bars < total /\ 1 <= snd (snd b) /\ snd (snd b) + bars < total)%nat.
Definition bars_image (v bars total : nat) (y : nat -> nat -> nat) : Prop :=
  exists b b', bar_ok bars total b /\ bar_ok bars total b' /\ (b' = b \/ far_apart 3 (snd b) (snd b')) /\
    forall i j, y i j = bar_label v bars b' i j (bar_label v bars b i j 0).
Definition bars_spec (v bars total c noise : nat) (xy : grid_x * list nat) : Prop :=
  shaped total total c xy /\ noisy_view total total c c noise same (fun u => [1 * u]%nat) xy /\
  exists y, bars_image v bars total y /\ labelled total total xy y.

(** C77: the hidden snakes example: when isSnakePresent is right, what distorting, adding and shortening pictures does. *)
From Coq Require Import ZArith Lia.
From Verif Require Import Spec.HiddenSnakesSpec Proofs.HiddenSnakes Proofs.HiddenSnakes2 Proofs.HiddenSnakes3 Proofs.HiddenSnakes4.

(** ** isSnakePresent *)
(** On one-hot pictures with a background border the check never raises.  It finds a chain of [n] distinct cells, each pointing at the
    next one, or a closed loop of n - 1 cells. *)
Theorem C77_present (p : arr3) (n : nat) : one_hot_picture p -> framed p ->
  exists b, isSnakePresent p n = Ok b /\ (b = true <-> has_snake p n \/ has_loop p (n - 1)).
Proof. exact (fun HO HF => present_spec p HO HF n). Qed.
(** loops have an even number of cells, so for an even number (10 is the default) the check is exact *)
Theorem C77_present_even (p : arr3) (n : nat) : one_hot_picture p -> framed p -> Nat.even n = true ->
  exists b, isSnakePresent p n = Ok b /\ (b = true <-> has_snake p n).
Proof. exact (present_even p n). Qed.
(** for every odd number from 3 on it is wrong for some picture: a loop of n - 1 cells is taken for a snake *)
Theorem C77_present_odd_refuted (m : nat) : (0 < m)%nat -> exists p, one_hot_picture p /\ framed p /\
  isSnakePresent p (2 * m + 1) = Ok true /\ ~ has_snake p (2 * m + 1).
Proof. exact (odd_refuted m). Qed.
(** without a background border the walk wraps around or leaves the picture: one cell pointing up counts as a snake of two cells,
    one cell pointing down raises IndexError; a pixel without a colour (see C76_one_hot_refuted) raises IndexError as well *)
Theorem C77_present_border_refuted :
  (exists p, one_hot_picture p /\ isSnakePresent p 2 = Ok true /\ ~ has_snake p 2) /\
  (exists p, one_hot_picture p /\ isSnakePresent p 2 = Err IndexError) /\
  (exists x p, pure_colours x /\ a_c x = 3%nat /\ one_hot_colors x = Ok p /\ isSnakePresent p 10 = Err IndexError).
Proof.
  split; [|split].
  - exists (picture 1 1 [[0]]%nat). split; [apply picture_one_hot; reflexivity|]. split; [vm_compute; reflexivity|].
    apply (few_cells _ 1); [apply picture_count; vm_compute; reflexivity|lia].
  - exists (picture 1 1 [[1]]%nat). split; [apply picture_one_hot; reflexivity|]. vm_compute. reflexivity.
  - exists (atab 1 1 3 (fun _ _ _ => ofN 255)). eexists. split.
    + intros i j c Hi Hj Hc. right. apply Snakes.aget_atab; assumption.
    + split; [reflexivity|]. split; [vm_compute; reflexivity|vm_compute; reflexivity].
Qed.

(** ** changeOneSnakeCell, distortSnake *)
(** The first draw chooses the cell to change, the next ten draws are attempts to find a cell of another colour; the first success is
    copied.  [cells hot] lists the coloured cells row by row. *)
Theorem C77_change (b : bool) (p hot : arr3) (n : nat) (draws : nat -> nat) :
  shown b p hot -> (4 <= a_c hot)%nat -> length (cells hot) = n -> (forall k, (draws k < n)%nat) ->
  exists q a, changeOneSnakeCell p b n draws = Ok q /\ nth_error (cells hot) (draws 0%nat) = Some a /\
    ((exists k c, (1 <= k <= 10)%nat /\ nth_error (cells hot) (draws k) = Some c /\ ~ same_colour p a c /\ recoloured p q a c /\
        forall k' c', (1 <= k' < k)%nat -> nth_error (cells hot) (draws k') = Some c' -> same_colour p a c') \/
     (q = p /\ forall k c, (1 <= k <= 10)%nat -> nth_error (cells hot) (draws k) = Some c -> same_colour p a c)).
Proof.
  intros H1 H2 H3 H4. destruct (change_ok b p hot n draws H1 H2 H3 H4) as [q [a [E [Ea [[k [c [K1 [K2 [K3 [-> K4]]]]]]|K]]]]].
  - exists (copy_pixel p a c), a. split; [exact E|]. split; [exact Ea|]. left. exists k, c.
    split; [exact K1|]. split; [exact K2|]. split; [exact K3|]. split; [apply copy_pixel_ok|exact K4].
  - exists q, a. auto.
Qed.
Theorem C77_cells (p : arr3) : NoDup (cells p) /\ forall a, In a (cells p) <-> coloured p a.
Proof. exact (conj (cells_NoDup p) (in_cells p)). Qed.
(** the picture stays one-hot and framed, with the same coloured cells (also when the colours are still RGB values) *)
Theorem C77_change_keeps (b : bool) (n : nat) (x hot : arr3) (draws : nat -> nat) :
  snake_picture b n x hot -> (forall k, (draws k < n)%nat) ->
  exists x' hot', changeOneSnakeCell x b n draws = Ok x' /\ changed b n x hot x' hot'.
Proof. exact (change_kind b n x hot draws). Qed.
(** the wrong number of coloured cells fails the assertion; no cells at all make randint fail *)
Theorem C77_change_errors (b : bool) (p hot : arr3) (n : nat) (draws : nat -> nat) :
  shown b p hot -> (4 <= a_c hot)%nat ->
  (length (cells hot) <> n -> changeOneSnakeCell p b n draws = Err AssertionError) /\
  (length (cells hot) = n -> n = 0%nat -> changeOneSnakeCell p b n draws = Err ValueError).
Proof. exact (change_errors b p hot n draws). Qed.
(** "Change the color of 1 snake cells": a straight snake has cells of one colour only and is never changed *)
Theorem C77_change_refuted : exists p, snake_picture true 3 p p /\ has_snake p 3 /\
  forall draws, (forall k, (draws k < 3)%nat) -> changeOneSnakeCell p true 3 draws = Ok p.
Proof.
  set (p := picture 3 5 [[3; 3; 3; 3; 3]; [3; 2; 2; 2; 3]]%nat).
  assert (O : one_hot_picture p) by (apply picture_one_hot; reflexivity).
  assert (F : framed p) by (apply picture_framed; reflexivity).
  assert (L : cells p = [(1, 1); (1, 2); (1, 3)]%nat) by (vm_compute; reflexivity).
  assert (C : coloured_count p 3) by (apply picture_count; fold p; rewrite L; reflexivity).
  exists p. split; [split; [reflexivity|]; split; [exact O|]; split; [exact F|exact C]|]. split.
  - exists [(1, 1); (1, 2); (1, 3)]%nat. split; [reflexivity|]. split.
    + repeat constructor; cbn; intuition congruence.
    + assert (K : forall a, In a (cells p) -> coloured p a) by (intro a; apply in_cells). rewrite L in K.
      apply arrows_more; [apply K; cbn; auto|apply points_right; apply Qc_is_canon; vm_compute; reflexivity|].
      apply arrows_more; [apply K; cbn; auto|apply points_right; apply Qc_is_canon; vm_compute; reflexivity|].
      apply arrows_one, K. cbn. auto.
  - intros draws D. destruct (change_ok true p p 3 draws eq_refl ltac:(cbn; lia) ltac:(rewrite L; reflexivity) D) as [q [a [E [Ea K]]]].
    rewrite E. f_equal. destruct K as [[k [c [_ [Ec [N _]]]]]|[K _]]; [|exact K]. exfalso. apply N.
    assert (S : forall x, In x (cells p) -> forall c, (c < 5)%nat -> aget p (fst x) (snd x) c = ind (2 =? c)%nat).
    { intros x Hx c' Hc'. rewrite L in Hx. destruct Hx as [<-|[<-|[<-|[]]]]; unfold p, picture; rewrite Snakes.aget_atab by (cbn; lia); reflexivity. }
    intros c' Hc'. rewrite (S a (nth_error_In _ _ Ea) c' Hc'), (S c (nth_error_In _ _ Ec) c' Hc'). reflexivity.
Qed.

(** ** augmentWithNoSnakeImages *)
(** Returns the given pictures and labels followed by the new ones: distorted copies without a snake of ten cells, labelled with
    zeros.  With fewer than ten cells per snake none of the copies is discarded. *)
Theorem C77_augment (b : bool) (iMult nCell : nat) (draws : nat -> nat -> nat) (X H : list arr3) (Y : list lab2) :
  Forall2 (snake_picture b nCell) X H -> length Y = length X -> (forall k d, (draws k d < nCell)%nat) ->
  exists newX newY, augmentWithNoSnakeImages X Y b iMult nCell draws = Ok (length newX, X ++ newX, Y ++ newY) /\
    length newY = length newX /\ (length newX <= iMult * length X)%nat /\
    (forall x', In x' newX -> exists x hot hot', In (x, hot) (combine X H) /\ changed b nCell x hot x' hot' /\ ~ has_snake hot' 10) /\
    (forall y', In y' newY -> exists y, In y Y /\ all_zero y y') /\
    ((nCell < 10)%nat -> length newX = (iMult * length X)%nat).
Proof. exact (augment_ok b iMult nCell draws X H Y). Qed.
(** "pictures without snakes" is false for shorter snakes: isSnakePresent is not told their length.  A picture that shows a snake of
    three cells is added with zero labels. *)
Theorem C77_augment_refuted : exists p y, snake_picture true 3 p p /\ has_snake p 3 /\
  forall draws, (forall k d, (draws k d < 3)%nat) ->
    augmentWithNoSnakeImages [p] [y] true 1 3 draws = Ok (1%nat, [p; p], [y; zeros_like y]).
Proof.
  destruct C77_change_refuted as [p [S [HS HC]]]. exists p, (ltab 3 5 (fun _ _ => 1%nat)). split; [exact S|]. split; [exact HS|].
  intros draws D. unfold augmentWithNoSnakeImages. cbn [copies app distort_all]. rewrite HC by (intro k; apply D).
  cbn [bind combine keep_without]. destruct S as [_ [O [F C]]].
  destruct (present_even p 10 O F eq_refl) as [b [E K]]. rewrite E. cbn [bind]. destruct b; [|reflexivity].
  exfalso. apply (few_cells p 3 10 C); [lia|]. apply K. reflexivity.
Qed.

(** ** shorten_snakes *)
(** the crop and its contents, for every picture of which some cell is kept *)
Theorem C77_shorten (N : nat) (x : arr3) (y : lab2) :
  a_h x = l_h y -> a_w x = l_w y -> (exists i j, kept_label N y i j) ->
  exists i0 i1 j0 j1 x' y', row_range N y i0 i1 /\ col_range N y j0 j1 /\
    shorten_snake N x y = Ok (x', y') /\
    a_h x' = (Nat.min (l_h y) (i1 + 2) - crop_start (l_h y) i0)%nat /\ a_w x' = (Nat.min (l_w y) (j1 + 2) - crop_start (l_w y) j0)%nat /\
    a_c x' = a_c x /\ l_h y' = a_h x' /\ l_w y' = a_w x' /\
    forall i j, (i < a_h x')%nat -> (j < a_w x')%nat ->
      lget y' i j = erased_label N y (crop_start (l_h y) i0 + i) (crop_start (l_w y) j0 + j) /\
      forall c, (c < a_c x)%nat -> aget x' i j c = erased_pixel N x y (crop_start (l_h y) i0 + i) (crop_start (l_w y) j0 + j) c.
Proof. exact (shorten_ok N x y). Qed.
(** A snake that does not touch the border: the crop holds exactly the kept cells, moved by (di, dj); everything else in it is
    background, its border included. *)
Theorem C77_shorten_inside (N : nat) (x : arr3) (y : lab2) :
  a_h x = l_h y -> a_w x = l_w y -> (exists i j, kept_label N y i j) ->
  (forall i j, (i < l_h y)%nat -> (j < l_w y)%nat -> i = 0%nat \/ j = 0%nat \/ S i = l_h y \/ S j = l_w y -> lget y i j = 0%nat) ->
  (forall i j c, (i < l_h y)%nat -> (j < l_w y)%nat -> (c < a_c x)%nat -> lget y i j = 0%nat -> aget x i j c = aget x 0 0 c) ->
  exists x' y' di dj, shorten_snake N x y = Ok (x', y') /\ a_c x' = a_c x /\ l_h y' = a_h x' /\ l_w y' = a_w x' /\
    (forall i j, kept_label N y i j -> (di < i)%nat /\ (dj < j)%nat /\ (S (i - di) < a_h x')%nat /\ (S (j - dj) < a_w x')%nat /\
       lget y' (i - di) (j - dj) = lget y i j /\ forall c, (c < a_c x)%nat -> aget x' (i - di) (j - dj) c = aget x i j c) /\
    (forall i j, (i < a_h x')%nat -> (j < a_w x')%nat -> ~ kept_label N y (di + i) (dj + j) ->
       lget y' i j = 0%nat /\ forall c, (c < a_c x)%nat -> aget x' i j c = aget x 0 0 c) /\
    (forall i j, (i < a_h x')%nat -> (j < a_w x')%nat -> i = 0%nat \/ j = 0%nat \/ S i = a_h x' \/ S j = a_w x' -> ~ kept_label N y (di + i) (dj + j)).
Proof. exact (shorten_inside N x y). Qed.
(** A snake that touches the first row: the slice starts at row -1, the last one, so at most one row is left and usually none. *)
Theorem C77_shorten_border_refuted (N : nat) (x : arr3) (y : lab2) (x' : arr3) (y' : lab2) :
  a_h x = l_h y -> a_w x = l_w y -> shorten_snake N x y = Ok (x', y') -> (exists j, kept_label N y 0 j) ->
  (a_h x' <= 1)%nat /\ ((forall i j, kept_label N y i j -> (i + 2 < l_h y)%nat) -> a_h x' = 0%nat).
Proof. exact (shorten_top N x y x' y'). Qed.
Theorem C77_shorten_errors (N : nat) (x : arr3) (y : lab2) :
  (a_h x <> l_h y \/ a_w x <> l_w y -> shorten_snake N x y = Err AssertionError) /\
  (a_h x = l_h y -> a_w x = l_w y -> (l_h y * l_w y)%nat = 0%nat -> shorten_snake N x y = Err IndexError) /\
  (a_h x = l_h y -> a_w x = l_w y -> (0 < l_h y * l_w y)%nat -> ~ (exists i j, kept_label N y i j) -> shorten_snake N x y = Err ValueError).
Proof. exact (shorten_errors N x y). Qed.

(** ** Examples *)
(** a snake of four cells in a picture of 5 x 6 pixels *)
Definition ex38_x : arr3 := picture 5 6 [[]; [3; 2; 2; 1]; [3; 3; 3; 2]]%nat.
Definition ex38_y : lab2 := labels 5 6 [[]; [0; 1; 2; 3]; [0; 0; 0; 4]]%nat.
Example ex38_kind : snake_picture true 4 ex38_x ex38_x.
Proof.
  split; [reflexivity|]. split; [apply picture_one_hot; reflexivity|]. split; [apply picture_framed; reflexivity|].
  apply picture_count. vm_compute. reflexivity.
Qed.
Example ex38_present : map (fun n => match isSnakePresent ex38_x n with Ok b => b | Err _ => false end) [1; 2; 3; 4; 5; 10]%nat =
  [true; true; true; true; false; false].
Proof. vm_compute. reflexivity. Qed.
(** draws 2, 2, 0, ..: cell (1, 3) gets the colour of cell (1, 1); the snake is gone *)
Example ex38_changed :
  match changeOneSnakeCell ex38_x true 4 (fun k => nth k [2; 2; 0]%nat 0%nat) with
  | Ok q => map (fun c => Qnum (this (aget q 1 3 c))) [0; 1; 2; 3; 4]%nat = [0; 0; 1; 0; 0]%Z /\ isSnakePresent q 4 = Ok false
  | Err _ => False
  end.
Proof. vm_compute. split; reflexivity. Qed.
Example ex38_augment :
  match augmentWithNoSnakeImages [ex38_x] [ex38_y] true 2 4 (fun k d => nth d [2; 2; 0]%nat 0%nat) with
  | Ok (n, X, Y) => (n, length X) = (2, 3)%nat /\ map l_dat Y = [l_dat ex38_y; repeat (repeat 0%nat 6) 5; repeat (repeat 0%nat 6) 5]
  | Err _ => False
  end.
Proof. vm_compute. split; reflexivity. Qed.
(** the first three cells, cropped to 3 x 5 pixels *)
Example ex38_shorten :
  match shorten_snake 3 ex38_x ex38_y with
  | Ok (x', y') => (a_h x', a_w x') = (3, 5)%nat /\ l_dat y' = [[0; 0; 0; 0; 0]; [0; 1; 2; 3; 0]; [0; 0; 0; 0; 0]]%nat
  | Err _ => False
  end.
Proof. vm_compute. split; reflexivity. Qed.
(** the same snake one row higher is lost *)
Example ex38_lost :
  match shorten_snake 3 (picture 5 6 [[3; 2; 2; 1]; [3; 3; 3; 2]]%nat) (labels 5 6 [[0; 1; 2; 3]; [0; 0; 0; 4]]%nat) with
  | Ok (x', y') => (a_h x', a_w x') = (0, 5)%nat
  | Err _ => False
  end.
Proof. vm_compute. reflexivity. Qed.

Print Assumptions C77_present.
Print Assumptions C77_present_even.
Print Assumptions C77_present_odd_refuted.
Print Assumptions C77_present_border_refuted.
Print Assumptions C77_change.
Print Assumptions C77_cells.
Print Assumptions C77_change_keeps.
Print Assumptions C77_change_errors.
Print Assumptions C77_change_refuted.
Print Assumptions C77_augment.
Print Assumptions C77_augment_refuted.
Print Assumptions C77_shorten.
Print Assumptions C77_shorten_inside.
Print Assumptions C77_shorten_border_refuted.
Print Assumptions C77_shorten_errors.

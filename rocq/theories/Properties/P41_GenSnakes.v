(** C80: snakes generated at random, and the grids in which pictures are shown. *)
From Coq Require Import ZArith Lia Permutation.
From Verif Require Import Spec.TwoTypesSpec Spec.GenSnakesSpec Proofs.GenSnakes3 Proofs.GenSnakes4 Proofs.GenSnakes5.

(** ** genSnakes *)
(** Whatever the shuffles are and whatever the dictionary holds: a run that ends raises nothing and returns [N] pictures.  Each one
    shows exactly one snake of [n] cells ([shows]), on at most n + 5 rows and columns together. *)
Theorem C80_snakes (shuffle : nat -> list nat -> list nat) (fuel N n : nat) (used : list (list site)) r :
  shuffles shuffle -> (0 < n)%nat -> genSnakes shuffle fuel N used n = Some r ->
  exists out used', r = Ok (out, used') /\ length out = N /\
    Forall (fun xy => (exists l, shows n (fst xy) (snd xy) l) /\ (a_h (fst xy) + a_w (fst xy) <= n + 5)%nat) out.
Proof. exact (gen_result shuffle n fuel N used r). Qed.
(** such a picture is an input of augmentWithNoSnakeImages, and isSnakePresent finds the snake *)
Theorem C80_present (n : nat) (x : arr3) (y : lab2) (l : list (nat * nat)) : shows n x y l ->
  exists hot, one_hot_colors x = Ok hot /\ snake_picture false n x hot /\ isSnakePresent hot n = Ok true.
Proof. exact (shows_present n x y l). Qed.
(** its labels number the cells, as the constraints of C79 require, up to 255 cells *)
Theorem C80_labels (n : nat) (x : arr3) (y : lab2) (l : list (nat * nat)) : (n < 256)%nat -> shows n x y l -> snake_labels n y.
Proof. exact (shows_labels n x y l). Qed.
(** labels are stored in bytes: from 256 cells on, cell number 256 has the label of the background *)
Theorem C80_labels_refuted (n : nat) (x : arr3) (y : lab2) (l : list (nat * nat)) : (256 <= n)%nat -> shows n x y l ->
  ~ snake_labels n y /\ exists a, nth_error l 255 = Some a /\ lget y (fst a) (snd a) = 0%nat.
Proof. exact (shows_overflow n x y l). Qed.
(** "We ensure unicity of each Snake": no two pictures of a run agree, and none agrees with a picture of a later run that is given
    the same dictionary (or a larger one) *)
Theorem C80_unique (s1 s2 : nat -> list nat -> list nat) (n f1 f2 N1 N2 : nat) used out1 used1 used1' out2 used2 :
  shuffles s1 -> shuffles s2 -> (0 < n)%nat ->
  genSnakes s1 f1 N1 used n = Some (Ok (out1, used1)) -> incl used1 used1' ->
  genSnakes s2 f2 N2 used1' n = Some (Ok (out2, used2)) ->
  ForallOrdPairs (fun a b => ~ same_picture (fst a) (fst b)) (out1 ++ out2).
Proof. exact (gen_unique s1 s2 n f1 f2 N1 N2 used out1 used1 used1' out2 used2). Qed.
(** a picture determines its snake *)
Theorem C80_determined (n : nat) (x x' : arr3) (y y' : lab2) (l l' : list (nat * nat)) :
  (0 < n)%nat -> shows n x y l -> shows n x' y' l' -> same_picture x x' -> l = l'.
Proof. exact (shows_same n x y l x' y' l'). Qed.
(** therefore the loop does not end when more than 4 ^ (n - 1) snakes are asked for *)
Theorem C80_ends_refuted (shuffle : nat -> list nat -> list nat) (fuel N n : nat) (used : list (list site)) :
  shuffles shuffle -> (0 < n)%nat -> (4 ^ (n - 1) < N)%nat -> genSnakes shuffle fuel N used n = None.
Proof. exact (gen_never shuffle n fuel N used). Qed.
(** more rounds do not change the result *)
Theorem C80_fuel (shuffle : nat -> list nat -> list nat) (n N : nat) (used : list (list site)) r (fuel fuel' : nat) :
  (fuel <= fuel')%nat -> genSnakes shuffle fuel N used n = Some r -> genSnakes shuffle fuel' N used n = Some r.
Proof. exact (gen_mono shuffle n N used r fuel fuel'). Qed.
(** straight snakes are possible for every [n]: their picture has n + 2 rows or columns *)
Theorem C80_straight (n : nat) : (0 < n)%nat -> exists shuffle x y key, shuffles shuffle /\
  genSnakes shuffle 1 1 [] n = Some (Ok ([(x, y)], [key])) /\ a_h x = (n + 2)%nat /\ a_w x = 3%nat.
Proof. intro Hn. destruct (straight n Hn) as [x [y [key H]]]. exists keep, x, y, key. split; [exact keep_shuffles|exact H]. Qed.
(** no snakes of no cells: ValueError, or, when the empty walk is in the dictionary already, an endless loop *)
Theorem C80_zero (shuffle : nat -> list nat -> list nat) (fuel N : nat) (used : list (list site)) :
  (~ In [] used -> genSnakes shuffle (S fuel) (S N) used 0 = Some (Err ValueError)) /\
  (In [] used -> genSnakes shuffle fuel (S N) used 0 = None).
Proof. exact (gen_zero shuffle fuel N used). Qed.

(** ** plot_many_snakes *)
(** Pictures of at most ncell + 1 rows and columns: grid number [q] shows the pictures from number q * nv * nh on, row by row, each
    in a square of its own; everything else is black. *)
Theorem C80_grids (fuel nv nh ncell : nat) (lX : list arr3) :
  (0 < nv * nh)%nat -> (length lX <= fuel)%nat ->
  Forall (fun img => a_c img = 3%nat /\ (a_h img <= ncell + 1)%nat /\ (a_w img <= ncell + 1)%nat) lX ->
  exists gs, plot_many_snakes fuel lX nv nh ncell = Some (Ok gs) /\ length gs = ((length lX + (nv * nh - 1)) / (nv * nh))%nat /\
    forall q g, nth_error gs q = Some g -> a_h g = ((ncell + 1) * nv)%nat /\ a_w g = ((ncell + 1) * nh)%nat /\ a_c g = 3%nat /\
      forall t i j c, (t < nv * nh)%nat -> (i < ncell + 1)%nat -> (j < ncell + 1)%nat -> (c < 3)%nat ->
        tile (ncell + 1) nh g t i j c =
        match nth_error lX (q * (nv * nh) + t) with
        | Some img => if ((i <? a_h img) && (j <? a_w img))%nat then aget img i j c else 0
        | None => 0
        end.
Proof. exact (fun HP => plot_ok nv nh ncell HP fuel lX). Qed.
(** a larger picture in the last row or column of a grid raises ValueError *)
Theorem C80_grids_big (fuel nv nh ncell k : nat) (lX : list arr3) (img : arr3) :
  (0 < nv * nh)%nat -> (length lX <= fuel)%nat -> Forall (fun img => a_c img = 3%nat) lX -> nth_error lX k = Some img ->
  (k mod (nv * nh) / nh = nv - 1 /\ ncell + 1 < a_h img)%nat \/ (k mod nh = nh - 1 /\ ncell + 1 < a_w img)%nat ->
  plot_many_snakes fuel lX nv nh ncell = Some (Err ValueError).
Proof. exact (fun HP => plot_big nv nh ncell img k HP fuel lX). Qed.
(** "to have border": the squares are too small for the pictures of genSnakes.  For every number of cells and columns there is one
    (a straight snake) that cannot be shown in the last row. *)
Theorem C80_grids_refuted (n nh : nat) : (0 < n)%nat -> (0 < nh)%nat -> exists shuffle x y key, shuffles shuffle /\
  genSnakes shuffle 1 1 [] n = Some (Ok ([(x, y)], [key])) /\
  forall fuel, (0 < fuel)%nat -> plot_many_snakes fuel [x] 1 nh n = Some (Err ValueError).
Proof.
  intros Hn Hh. destruct (C80_straight n Hn) as [shuffle [x [y [key [HS [E [H W]]]]]]]. exists shuffle, x, y, key. split; [exact HS|].
  split; [exact E|]. intros fuel Hf. apply (plot_big 1 nh n x 0 ltac:(lia) fuel [x]).
  - cbn. lia.
  - constructor; [|constructor]. destruct (gen_result _ n _ _ _ _ HS Hn E) as [out [used' [Q [_ F]]]]. injection Q as <- <-.
    inversion F as [|? ? [[l Sh] _] _]; subst. exact (proj1 (proj2 Sh)).
  - reflexivity.
  - left. rewrite Nat.mod_0_l, Nat.div_0_l by lia. split; [reflexivity|lia].
Qed.
(** a grid without squares: the loop does not advance *)
Theorem C80_grids_never (fuel nv nh ncell : nat) (lX : list arr3) :
  (nv * nh = 0)%nat -> lX <> [] -> plot_many_snakes fuel lX nv nh ncell = None.
Proof. exact (plot_never fuel lX nv nh ncell). Qed.

(** ** plot_mistakes *)
Theorem C80_mistakes (ncell : nat) (l : list (list Z * list Z * arr3)) : Forall (labelled_picture ncell) l ->
  mistakes ncell l [] [] = Ok (map snd (filter (wrong (Z.of_nat ncell + 1)) l), map snd (filter (wrong (Z.of_nat ncell + 2)) l)).
Proof. exact (fun H => mistakes_ok ncell l H [] []). Qed.

(** ** Examples *)
(** rotations of the list of directions: the [k]-th call rotates by the [k]-th number *)
Definition ex41_turn (rs : list nat) (k : nat) (l : list nat) : list nat := (skipn (nth k rs 0) l ++ firstn (nth k rs 0) l)%nat.
Example ex41_shuffles rs : shuffles (ex41_turn rs).
Proof.
  intros k l. unfold ex41_turn. rewrite Permutation_app_comm, firstn_skipn. apply Permutation_refl.
Qed.
(** two snakes of three cells: east, east, south; the same cells again (refused); then west, north, north *)
Definition ex41_two := genSnakes (ex41_turn [1; 0; 1; 3; 0; 0; 2; 1; 0]%nat) 5 2 [] 3.
Example ex41_labels : exists x1 x2 y1 y2 u, ex41_two = Some (Ok ([(x1, y1); (x2, y2)], u)) /\
  l_dat y1 = [[0; 0; 0; 0; 0]; [0; 1; 2; 3; 0]; [0; 0; 0; 0; 0]]%nat /\
  l_dat y2 = [[0; 0; 0; 0]; [0; 3; 0; 0]; [0; 2; 1; 0]; [0; 0; 0; 0]]%nat /\
  u = [[(4, 4); (4, 5); (4, 6)]; [(4, 4); (4, 3); (3, 3)]]%Z /\ length u = 2%nat.
Proof. do 5 eexists. split; [reflexivity|]. repeat split. Qed.
(** the walk of nine cells runs into itself after eight; the next attempt goes straight *)
Definition ex41_stuck (fuel : nat) := genSnakes (ex41_turn [1; 0; 1; 0; 1; 0; 1; 1; 0; 3]%nat) fuel 1 [] 9.
Example ex41_retry : ex41_stuck 1 = None /\ exists x y u, ex41_stuck 2 = Some (Ok ([(x, y)], u)) /\ (a_h x, a_w x) = (11, 3)%nat.
Proof. split; [vm_compute; reflexivity|]. do 3 eexists. split; [reflexivity|reflexivity]. Qed.
(** the fifth snake of two cells is never found *)
Example ex41_never fuel : genSnakes (ex41_turn [1; 2; 3]%nat) fuel 5 [] 2 = None.
Proof. apply C80_ends_refuted; [apply ex41_shuffles|lia|vm_compute; lia]. Qed.
(** three pictures in grids of one row and two columns, squares of 3 x 3 *)
Definition ex41_img (h w : nat) : arr3 := atab h w 3 (fun i j c => ofN (1 + i + 2 * j + c)).
Example ex41_grids : match plot_many_snakes 3 [ex41_img 2 3; ex41_img 3 1; ex41_img 1 1] 1 2 2 with
  | Some (Ok [g1; g2]) =>
      map (fun r => map (fun px => this (get1 px 0)) r) (a_dat g1) = [[1; 3; 5; 1; 0; 0]; [2; 4; 6; 2; 0; 0]; [0; 0; 0; 3; 0; 0]]%Q /\
      map (fun r => map (fun px => this (get1 px 0)) r) (a_dat g2) = [[1; 0; 0; 0; 0; 0]; [0; 0; 0; 0; 0; 0]; [0; 0; 0; 0; 0; 0]]%Q
  | _ => False
  end.
Proof. vm_compute. split; reflexivity. Qed.
Example ex41_grids_met : Forall (fun img => a_c img = 3%nat /\ (a_h img <= 2 + 1)%nat /\ (a_w img <= 2 + 1)%nat)
  [ex41_img 2 3; ex41_img 3 1; ex41_img 1 1].
Proof. repeat constructor. Qed.
Example ex41_grids_bad : plot_many_snakes 3 [ex41_img 2 3; ex41_img 2 4] 1 2 2 = Some (Err ValueError).
Proof. vm_compute. reflexivity. Qed.
(** pictures of one pixel: a picture without snake taken for one with a snake, and two right predictions *)
Definition ex41_triples : list (list Z * list Z * arr3) :=
  [([0; 4], [0; 5], ex41_img 1 1); ([0; 5], [1; 5], ex41_img 1 1); ([1; 4], [0; 4], ex41_img 1 1)]%Z.
Example ex41_mistakes_met : Forall (labelled_picture 3) ex41_triples.
Proof.
  repeat (apply Forall_cons; [split; [reflexivity|split; [reflexivity|split; [reflexivity|vm_compute; auto]]]|]). apply Forall_nil.
Qed.
Example ex41_mistakes : mistakes 3 ex41_triples [] [] = Ok ([ex41_img 1 1], []) /\
  mistakes 4 ex41_triples [] [] = Err AssertionError.
Proof. split; reflexivity. Qed.
Print Assumptions C80_snakes.
Print Assumptions C80_present.
Print Assumptions C80_labels.
Print Assumptions C80_labels_refuted.
Print Assumptions C80_unique.
Print Assumptions C80_determined.
Print Assumptions C80_ends_refuted.
Print Assumptions C80_fuel.
Print Assumptions C80_straight.
Print Assumptions C80_zero.
Print Assumptions C80_grids.
Print Assumptions C80_grids_big.
Print Assumptions C80_grids_refuted.
Print Assumptions C80_grids_never.
Print Assumptions C80_mistakes.

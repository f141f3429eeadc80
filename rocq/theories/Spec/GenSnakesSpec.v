(** Specification of generated snakes: pictures that show exactly one snake, numbered from its first to its last cell. *)
From Coq Require Import ZArith Permutation.
From Verif Require Export Model.GenSnakes Spec.HiddenSnakesSpec.

(** random.shuffle permutes *)
Definition shuffles (shuffle : nat -> list nat -> list nat) : Prop := forall k l, Permutation l (shuffle k l).

(** [l]: the cells of the snake.  Every cell points at the next one and the last one at background; no other pixel is coloured; rows
    and columns without snake are only those of the border; labels are stored modulo 256. *)
Definition shows (n : nat) (x : arr3) (y : lab2) (l : list (nat * nat)) : Prop :=
  pure_colours x /\ a_c x = 3%nat /\ l_h y = a_h x /\ l_w y = a_w x /\ length l = n /\ NoDup l /\
  (exists hot, one_hot_colors x = Ok hot /\ one_hot_picture hot /\ framed hot /\ arrows hot l /\
     a_h hot = a_h x /\ a_w hot = a_w x /\
     (forall a, coloured hot a <-> In a l) /\
     (exists b, points hot (last l (0, 0)%nat) b /\ (fst b < a_h x)%nat /\ (snd b < a_w x)%nat /\ ~ coloured hot b)) /\
  (exists a b c d, In a l /\ In b l /\ In c l /\ In d l /\
     fst a = 1%nat /\ (fst b + 2)%nat = a_h x /\ snd c = 1%nat /\ (snd d + 2)%nat = a_w x) /\
  (forall k a, nth_error l k = Some a -> lget y (fst a) (snd a) = (S k mod 256)%nat) /\
  (forall i j, (i < a_h x)%nat -> (j < a_w x)%nat -> ~ In (i, j) l -> lget y i j = 0%nat).

(** the pixels of grid [g] that belong to picture number [k] of it *)
Definition tile (N nh : nat) (g : arr3) (k i j c : nat) : Qc := aget g (k / nh * N + i) (k mod nh * N + j) c.
(** labels with the picture label [z] predicted otherwise *)
Definition wrong (z : Z) (t : list Z * list Z * arr3) : bool :=
  let '(y, y', x) := t in ((last y 0 =? z) && negb (last y' 0 =? z))%Z.
(** labels of the same length, one per pixel and one for the picture *)
Definition labelled_picture (ncell : nat) (t : list Z * list Z * arr3) : Prop :=
  let '(y, y', x) := t in
  length y = length y' /\ length y = (a_h x * a_w x + 1)%nat /\ a_c x = 3%nat /\
  (last y 0 = Z.of_nat ncell + 1 \/ last y 0 = Z.of_nat ncell + 2)%Z.

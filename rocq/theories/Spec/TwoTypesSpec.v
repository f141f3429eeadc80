(** Specification for the snake instances with pixel and picture nodes. *)
From Coq Require Import String ZArith.
From Verif Require Export Model.TwoTypes Spec.HiddenSnakesSpec Spec.SwapTypesSpec.

(** ** Picture features *)
(** exactly [n] pixels show channel [c] *)
Definition channel_count (p : arr3) (c n : nat) : Prop :=
  exists l, NoDup l /\ length l = n /\
    forall a, In a l <-> (fst a < a_h p)%nat /\ (snd a < a_w p)%nat /\ aget p (fst a) (snd a) c = 1.
(** first and last row (column) with a pixel that is not background *)
Definition colour_rows (p : arr3) (lo hi : nat) : Prop :=
  (exists j, coloured p (lo, j)) /\ (exists j, coloured p (hi, j)) /\ forall a, coloured p a -> (lo <= fst a <= hi)%nat.
Definition colour_cols (p : arr3) (lo hi : nat) : Prop :=
  (exists i, coloured p (i, lo)) /\ (exists i, coloured p (i, hi)) /\ forall a, coloured p a -> (lo <= snd a <= hi)%nat.

(** ** Weights of the pixels alone: nodes, then edges between pixels; [K] states per pixel, 2 x 7 weights of the picture
    in between *)
Definition pixel_weights (K : nat) (w : list Qc) : list Qc :=
  (firstn (K * 45) w ++ slice (K * 45 + 2 * 7) (K * 45 + 2 * 7 + 180 * (K * K)) w)%list.

(** ** Logic constraints, from the documentation of AD3: a constraint is about the truth values "this node has this state",
    in the order of the types and nodes *)
Definition trues (bits : list bool) : nat := length (filter (fun b => b) bits).
Definition operator_holds (op : string) (bits : list bool) : Prop :=
  let inputs := removelast bits in let output := last bits false in
  if String.eqb op "XOR" then trues bits = 1%nat
  else if String.eqb op "ATMOSTONE" then (trues bits <= 1)%nat
  else if String.eqb op "OR" then (1 <= trues bits)%nat
  (* the output tells which of "exactly one" and "none" holds *)
  else if String.eqb op "XOROUT" then trues (inputs ++ [negb output]) = 1%nat
  else if String.eqb op "OROUT" then output = existsb (fun b => b) inputs
  else if String.eqb op "ANDOUT" then output = forallb (fun b => b) inputs
  else if String.eqb op "IMPLY" then forallb (fun b => b) inputs = true -> output = true
  else False.
(** [y t i]: state of node [i] of type [t] *)
Definition constraint_bits (y : nat -> nat -> nat) (l : list (list nat * option nat * option bool)) : list bool :=
  concat (map (fun q => match q with
                        | (t, (us, Some s, Some neg)) => map (fun i => xorb neg (y t i =? s)%nat) us
                        | _ => []
                        end) (combine (seq 0 (length l)) l)).
Definition satisfied (y : nat -> nat -> nat) (c : scalar_constraint) : Prop := operator_holds (fst c) (constraint_bits y (snd c)).
Definition all_satisfied (y : nat -> nat -> nat) (cs : list scalar_constraint) : Prop := Forall (satisfied y) cs.

Definition exactly_one (n : nat) (P : nat -> Prop) : Prop :=
  exists k, (k < n)%nat /\ P k /\ forall k', (k' < n)%nat -> P k' -> k' = k.
Definition at_most_one (n : nat) (P : nat -> Prop) : Prop :=
  forall k k', (k < n)%nat -> (k' < n)%nat -> P k -> P k' -> k = k'.
(** the labels of a picture with a snake: every cell number once; and of a picture without *)
Definition snake_labels (nCell : nat) (y : lab2) : Prop :=
  forall s, (1 <= s <= nCell)%nat -> exists i j, (i < l_h y)%nat /\ (j < l_w y)%nat /\ lget y i j = s /\
    forall i' j', (i' < l_h y)%nat -> (j' < l_w y)%nat -> lget y i' j' = s -> i' = i /\ j' = j.
Definition no_labels (y : lab2) : Prop :=
  forall i j, (i < l_h y)%nat -> (j < l_w y)%nat -> lget y i j = 0%nat.

(** Binary problems: labels -1 and +1, two classes 0 and 1, and the labels of a multi-label problem one at a time. *)
From Coq Require Import ZArith.
From Verif Require Export Spec.MoreTasks Spec.SubgradientRateSpec.

(** class 0 is the label -1, class 1 is the label +1 *)
Definition class_of (y : Z) : nat := if (y =? 1)%Z then 1%nat else 0%nat.
Definition label_of (s : nat) : Z := if (s =? 0)%nat then (-1)%Z else 1%Z.

(** the weights of the [l]-th class or label, [F] of them *)
Definition block (F : nat) (w : list Qc) (l : nat) : list Qc := tab1 F (fun j => get1 w (l * F + j)).
(** [L] blocks of [F] weights side by side *)
Definition blocks (F L : nat) (ws : nat -> list Qc) : list Qc := concat (tab2 L F (fun l j => get1 (ws l) j)).

(** two blocks: minus and plus one half of [u] *)
Definition opposite (F : nat) (u : list Qc) : list Qc := blocks F 2 (fun l => vscale (ofZ (label_of l) / (1 + 1)) u).

(** inputs of [F] features with labels -1 and +1 *)
Definition binary_sample (F : nat) (p : list Qc * Z) : Prop := length (fst p) = F /\ (snd p = 1%Z \/ snd p = (-1)%Z).
(** inputs of [F] features with a subset of [L] labels *)
Definition multi_sample (F L : nat) (p : list Qc * list nat) : Prop := length (fst p) = F /\ Energy.labelling L 2 (snd p).

(** the same samples with classes instead of labels, and with label number [l] only *)
Definition two_classes (S : list (list Qc * Z)) : list (list Qc * nat) := map (fun p => (fst p, class_of (snd p))) S.
Definition one_label (l : nat) (S : list (list Qc * list nat)) : list (list Qc * Z) :=
  map (fun p => (fst p, label_of (lab (snd p) l))) S.

(** the hinge loss of a sample with label [y] *)
Definition binary_hinge (u x : list Qc) (y : Z) : Qc := Qcmax 0 (1 - ofZ y * dot u x).

(** Specification of multi-class scoring: one weight vector of length F per class. *)
From Verif Require Export Base.Sums.

(** score of class [s]: inner product of x with the s-th block of w *)
Definition class_score (F : nat) (w x : list Qc) (s : nat) : Qc :=
  sumn F (fun j => get1 w (s * F + j) * get1 x j).

(** [s] is the smallest maximiser of [f] over the classes 0 .. k-1 *)
Definition first_argmax (k : nat) (f : nat -> Qc) (s : nat) : Prop :=
  (s < k)%nat /\ (forall t, (t < k)%nat -> f t <= f s) /\ (forall t, (t < s)%nat -> f t < f s).

(** joint feature of class [y]: c * x in the y-th of k blocks of length F, zero elsewhere *)
Definition class_feature (c : Qc) (k F : nat) (x : list Qc) (y : nat) : list Qc :=
  concat (tab2 k F (fun s j => if (s =? y)%nat then c * get1 x j else 0)).

(** sum of vectors of length [d] *)
Definition vsum (d : nat) (fs : list (list Qc)) : list Qc := fold_right vadd (vzero d) fs.

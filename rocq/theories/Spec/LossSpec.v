(** Specification: class-weighted Hamming distance of two labellings of [n] nodes. *)
From Verif Require Export Base.Sums.

(** [c s]: price of getting a node of true class [s] wrong *)
Definition hamming (n : nat) (c : nat -> Qc) (y y' : nat -> nat) : Qc :=
  sumn n (fun i => if (y i =? y' i)%nat then 0 else c (y i)).

(** price of a mistake on class [s] under optional class weights (absent: every mistake costs 1) *)
Definition price (cw : option (list Qc)) (s : nat) : Qc :=
  match cw with Some c => get1 c s | None => 1 end.
(** the class weights cover the classes of [y] *)
Definition covers (cw : option (list Qc)) (y : list nat) : Prop :=
  match cw with Some c => Forall (fun s => (s < length c)%nat) y | None => True end.

(** Specification vocabulary: attributes an interrupted fit of NSlackSSVM leaves behind. *)
From Verif Require Export Spec.NSlackSpec Model.Interrupt.

(** the constraints are those of allowed outputs *)
Definition true_cons {X Y} (T : task X Y) (S : list (X * Y)) (cs : list (list (ncon Y))) : Prop :=
  Forall2 (fun s c => Forall (valid_con T s) c) S cs.
(** between two batches: one counter per constraint (kept if constraints are ever removed) *)
Definition steady {X Y} (T : task X Y) (d : nat) (prm : ns_params) (S : list (X * Y)) (st : ns_state Y) : Prop :=
  length (st_w st) = d /\ true_cons T S (st_cons st) /\
  (ns_window prm <> O -> Forall2 (fun s c => length s = length c) (st_cons st) (st_active st)).
(** each sample has a counter for every constraint, or for all but one *)
Definition counted {A} (cs : list (list A)) (active : list (list nat)) : Prop :=
  Forall2 (fun s c => length s = length c \/ length s = S (length c)) cs active.

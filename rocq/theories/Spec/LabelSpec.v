(** Specification of the multi-label score: each label l has a linear scorer, counted
    positively if the label is set and negatively otherwise; each edge has a 2x2 table. *)
From Verif Require Export Spec.Energy.

Definition label_unary (F : nat) (w x : list Qc) (l s : nat) : Qc :=
  let v := sumn F (fun f => get1 w (l * F + f) * get1 x f) in
  if (s =? 0)%nat then - v else v.
Definition label_pair (L F : nat) (w : list Qc) (e s t : nat) : Qc :=
  get1 w (L * F + (e * 4 + (s * 2 + t))).

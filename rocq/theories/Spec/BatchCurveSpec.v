(** Hinge losses of a sample looked at batch by batch, each batch at weights of its own. *)
From Verif Require Export Spec.NSlackSpec.

(** [r] sums the hinge losses of the batches [bs] (first position, position after the last) of
    the sample [S]; those of the k-th batch are taken at the k-th weights of [vs] *)
Fixpoint batch_losses {X Y} (T : task X Y) (S : list (X * Y)) (bs : list (nat * nat)) (vs : list (list Qc)) (r : Qc) : Prop :=
  match bs, vs with
  | [], [] => r = 0
  | b :: bs, v :: vs => exists hs r', hinges T v (firstn (snd b - fst b) (skipn (fst b) S)) hs /\ r = lsum hs + r' /\ batch_losses T S bs vs r'
  | _, _ => False
  end.

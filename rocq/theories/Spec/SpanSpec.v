(** Near-optimal weights; linear subspaces of weight vectors; inference that is only right on a
    subspace. *)
From Verif Require Export Spec.NSlackSpec Spec.OneSlackSpec.

Definition subspace (d : nat) (V : list Qc -> Prop) : Prop :=
  V (vzero d) /\ (forall a, V a -> length a = d) /\
  (forall a b, V a -> V b -> V (vadd a b)) /\ (forall c a, V a -> V (vscale c a)).
(** [pi] is the orthogonal projection onto [V] *)
Definition projection (d : nat) (V : list Qc -> Prop) (pi : list Qc -> list Qc) : Prop :=
  forall w, length w = d -> V (pi w) /\ forall v, V v -> dot (pi w) v = dot w v.
(** the joint features of all allowed outputs of the samples lie in [V] *)
Definition features_in {X Y} (T : task X Y) (V : list Qc -> Prop) (S : list (X * Y)) : Prop :=
  forall p y', In p S -> t_label T (fst p) y' -> V (t_feat T (fst p) y').
(** like [oracle_ok] and [oracle_exact], for weights in [V] only *)
Definition oracle_ok_on {X Y} (V : list Qc -> Prop) (m : smodel X Y) (T : task X Y) (d : nat) (S : list (X * Y)) : Prop :=
  forall p, In p S -> implements m T d (fst p) (snd p) /\
    forall w, V w -> exists yh, sm_laug m (fst p) (snd p) w = Ok yh /\ t_label T (fst p) yh.
Definition oracle_exact_on {X Y} (V : list Qc -> Prop) (m : smodel X Y) (T : task X Y) (d : nat) (S : list (X * Y)) : Prop :=
  forall p, In p S -> implements m T d (fst p) (snd p) /\ forall w, V w -> exact_laug m T w (fst p) (snd p).

(** [w] has hinge losses, and their objective is at most [gap] above that of any weights *)
Definition within {X Y} (T : task X Y) (d : nat) (C : Qc) (S : list (X * Y)) (w : list Qc) (gap : Qc) : Prop :=
  exists hs, hinges T w S hs /\
    forall w' hs', length w' = d -> hinges T w' S hs' -> primal_value C w hs <= primal_value C w' hs' + gap.
(** the gap of the n-slack learner on [n] samples *)
Definition n_gap (C : Qc) (n : nat) : Qc := C * (ofN n * small) + qp_reg * (ofN n * (C * C)).

(** Specification: marginals of a mixture of labellings. *)
From Verif Require Export Spec.LocalPolytope.

(** expected value of [f] *)
Definition mean (D : list (Qc * list nat)) (f : list nat -> Qc) : Qc := lsum (map (fun p => fst p * f (snd p)) D).

(** [D] lists labellings with their probabilities; [mu] and [nu] are its node and edge marginals *)
Definition mixture (n k : nat) (edges : list (nat * nat)) (D : list (Qc * list nat))
           (mu : nat -> nat -> Qc) (nu : nat -> nat -> nat -> Qc) : Prop :=
  Forall (fun p => 0 <= fst p /\ labelling n k (snd p)) D /\
  mean D (fun _ => 1) = 1 /\
  (forall i s, (i < n)%nat -> (s < k)%nat -> mu i s = mean D (fun y => one_hot_mu (lab y) i s)) /\
  (forall e s t, (e < length edges)%nat -> (s < k)%nat -> (t < k)%nat ->
     nu e s t = mean D (fun y => one_hot_nu edges (lab y) e s t)).

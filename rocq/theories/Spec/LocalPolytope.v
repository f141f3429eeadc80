(** Specification: the local marginal polytope of a pairwise graphical model, and linear programs. *)
From Verif Require Export Spec.Energy.

(** [mu i s]: marginal of label [s] at node [i]; [nu e s t]: marginal of the label pair at edge [e]. *)
Record local_polytope (n k : nat) (edges : list (nat * nat)) (mu : nat -> nat -> Qc) (nu : nat -> nat -> nat -> Qc) : Prop := {
  lpo_mu : forall i s, (i < n)%nat -> (s < k)%nat -> 0 <= mu i s;
  lpo_nu : forall e s t, (e < length edges)%nat -> (s < k)%nat -> (t < k)%nat -> 0 <= nu e s t;
  lpo_one : forall i, (i < n)%nat -> sumn k (mu i) = 1;
  lpo_fst : forall e s, (e < length edges)%nat -> (s < k)%nat ->
    sumn k (fun t => nu e s t) = mu (fst (nth e edges (0, 0)%nat)) s;
  lpo_snd : forall e t, (e < length edges)%nat -> (t < k)%nat ->
    sumn k (fun s => nu e s t) = mu (snd (nth e edges (0, 0)%nat)) t }.

(** expected score under the marginals *)
Definition marginal_score (n k : nat) (edges : list (nat * nat)) (U : nat -> nat -> Qc) (P : nat -> nat -> nat -> Qc)
           (mu : nat -> nat -> Qc) (nu : nat -> nat -> nat -> Qc) : Qc :=
  sumn n (fun i => sumn k (fun s => mu i s * U i s)) +
  sumn (length edges) (fun e => sumn k (fun s => sumn k (fun t => nu e s t * P e s t))).

(** marginals of a labelling *)
Definition one_hot_mu (y : nat -> nat) (i s : nat) : Qc := ind (s =? y i)%nat.
Definition one_hot_nu (edges : list (nat * nat)) (y : nat -> nat) (e s t : nat) : Qc :=
  ind (s =? y (fst (nth e edges (0, 0)%nat)))%nat * ind (t =? y (snd (nth e edges (0, 0)%nat)))%nat.

(** position of the variables in a flat vector *)
Definition var_mu (k : nat) (x : list Qc) (i s : nat) : Qc := get1 x (i * k + s).
Definition var_nu (n k : nat) (x : list Qc) (e s t : nat) : Qc := get1 x (n * k + (e * (k * k) + (s * k + t))).

(** Specification: fixed points of max-product on graphs with cycles. *)
From Verif Require Export Spec.SolverSpec Spec.Energy Spec.GraphTheory.

(** What the messages say about label [s] at node [v]: its own score plus all incoming messages. *)
Definition loopy_belief (edges : list (nat * nat)) (U : nat -> nat -> Qc) (fwd bwd : nat -> list Qc) (v s : nat) : Qc :=
  edge_terms edges fwd bwd v s + U v s.

(** The two messages along edge [e] = (a, b) satisfy the max-product equations

      fwd(t) = max_s (belief_a(s) - bwd(s) + P(s, t)) - c0,
      bwd(s) = max_t (belief_b(t) - fwd(t) + P(s, t)) - c1

    up to an error of at most [d]; the constants are arbitrary. *)
Definition settled (k : nat) (edges : list (nat * nat)) (U : nat -> nat -> Qc) (P : nat -> nat -> nat -> Qc)
           (fwd bwd : nat -> list Qc) (d : Qc) (e : nat) : Prop :=
  let a := fst (nth e edges (0, 0)%nat) in
  let b := snd (nth e edges (0, 0)%nat) in
  let out := fun s t => loopy_belief edges U fwd bwd a s - get1 (bwd e) s + P e s t in
  let back := fun s t => loopy_belief edges U fwd bwd b t - get1 (fwd e) t + P e s t in
  exists c0 c1,
    (forall s t, (s < k)%nat -> (t < k)%nat -> out s t <= get1 (fwd e) t + c0 + d) /\
    (forall t, (t < k)%nat -> exists s, (s < k)%nat /\ get1 (fwd e) t + c0 - d <= out s t) /\
    (forall s t, (s < k)%nat -> (t < k)%nat -> back s t <= get1 (bwd e) s + c1 + d) /\
    (forall s, (s < k)%nat -> exists t, (t < k)%nat /\ get1 (bwd e) s + c1 - d <= back s t).

(** At every node the label of [y] beats every other label by more than [g]. *)
Definition decided (n k : nat) (edges : list (nat * nat)) (U : nat -> nat -> Qc) (fwd bwd : nat -> list Qc)
           (g : Qc) (y : list nat) : Prop :=
  labelling n k y /\
  forall v s, (v < n)%nat -> (s < k)%nat -> s <> lab y v ->
    loopy_belief edges U fwd bwd v s + g < loopy_belief edges U fwd bwd v (lab y v).

(** Every edge inside the region [D] can be handed to one of its two ends such that no node
    receives two edges: for instance when the region contains no cycle, or one cycle in each of
    its connected parts (see C85_one_cycle). *)
Definition handed (edges : list (nat * nat)) (D : nat -> bool) (h : nat -> nat) : Prop :=
  (forall e, (e < length edges)%nat -> D (fst (nth e edges (0, 0)%nat)) = true -> D (snd (nth e edges (0, 0)%nat)) = true ->
     h e = fst (nth e edges (0, 0)%nat) \/ h e = snd (nth e edges (0, 0)%nat)) /\
  (forall e e', (e < length edges)%nat -> (e' < length edges)%nat ->
     D (fst (nth e edges (0, 0)%nat)) = true -> D (snd (nth e edges (0, 0)%nat)) = true ->
     D (fst (nth e' edges (0, 0)%nat)) = true -> D (snd (nth e' edges (0, 0)%nat)) = true ->
     h e = h e' -> e = e').
Definition one_cycle_each (edges : list (nat * nat)) (D : nat -> bool) : Prop := exists h, handed edges D h.

(** The nodes where two labellings differ, and the number of edges that touch them. *)
Definition differ (y y' : list nat) (v : nat) : bool := negb (lab y v =? lab y' v)%nat.
Definition touching (edges : list (nat * nat)) (D : nat -> bool) : nat :=
  length (filter (fun e => D (fst e) || D (snd e)) edges).
(** The edges with both ends in the region. *)
Definition inner (edges : list (nat * nat)) (D : nat -> bool) : list (nat * nat) :=
  filter (fun e => D (fst e) && D (snd e)) edges.

(** Specification for EdgeFeatureGraphCRF, from its class documentation: after the
    n_states*n_features unary weights come n_edge_features blocks of n_states^2 weights. *)
From Verif Require Export Spec.GraphSpec.

(** weight of states [s], [t] in the block of edge feature [f] *)
Definition edge_weight (S F : nat) (w : list Qc) (f s t : nat) : Qc :=
  get1 w (S * F + (f * (S * S) + (s * S + t))).

(** score of states [s], [t] on an edge with features [feat 0 .. feat (D-1)] *)
Definition edge_score (D S F : nat) (w : list Qc) (feat : nat -> Qc) (s t : nat) : Qc :=
  sumn D (fun f => feat f * edge_weight S F w f s t).

(** weights that respect the declared symmetries *)
Definition respects_symmetry (S F : nat) (sym anti : list nat) (w : list Qc) : Prop :=
  (forall f s t, In f sym -> (s < S)%nat -> (t < S)%nat ->
     edge_weight S F w f s t = edge_weight S F w f t s) /\
  (forall f s t, In f anti -> (s < S)%nat -> (t < S)%nat ->
     edge_weight S F w f s t = - edge_weight S F w f t s).

(** the weights with every declared block replaced by its (anti)symmetric part *)
Definition effective_weight (S F : nat) (sym anti : list nat) (w : list Qc) (f s t : nat) : Qc :=
  if existsb (Nat.eqb f) sym then (edge_weight S F w f s t + edge_weight S F w f t s) / (1 + 1)
  else if existsb (Nat.eqb f) anti then (edge_weight S F w f s t - edge_weight S F w f t s) / (1 + 1)
  else edge_weight S F w f s t.

(** linear combination of vectors of length [n] *)
Definition lincomb (n : nat) (l : list (Qc * list Qc)) : list Qc :=
  fold_right (fun cv acc => vadd (vscale (fst cv) (snd cv)) acc) (vzero n) l.

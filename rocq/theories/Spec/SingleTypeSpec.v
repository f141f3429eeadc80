(** One node type: NodeTypeEdgeFeatureGraphCRF with a single type against EdgeFeatureGraphCRF
    ("this should give exact same results as plot_snakes.py",
    examples/plot_snakes_typed.py 15-17). *)
From Coq Require Import ZArith String.
From Verif Require Export Base.Sums Model.EdgeFeature Model.Typed.

(** the typed model with one type and the sizes of [g] *)
Definition one_type (g : ef_crf) (cw : list Qc) (method : string) (exc : bool) : ty_crf :=
  TyCRF [ef_states g] [ef_features g] [[ef_edge_features g]] [cw] method exc.
(** no symmetric or antisymmetric edge features: the typed class does not have them *)
Definition plain (g : ef_crf) : Prop := ef_sym g = [] /\ ef_anti g = [].
(** every edge joins two rows of the node features *)
Definition edges_exist (x : ef_x) : Prop :=
  Forall (fun e => (fst e < mrows (ex_features x))%nat /\ (snd e < mrows (ex_features x))%nat) (ex_edges x).
(** one label per node *)
Definition labels_ok (g : ef_crf) (x : ef_x) (y : list nat) : Prop :=
  length y = mrows (ex_features x) /\ Forall (fun s => (s < ef_states g)%nat) y.
(** the marginals of a single graph, in the format for several types *)
Definition as_list (r : result) : result :=
  match r with RMarginals um pm => RMarginalsList [um] [pm] | r => r end.

(** The AD3 library treats a list with one graph like that graph, and the unary marginals have
    the shape of the unary potentials. *)
Definition singly {M} (r : res (ad3_answer M)) : res (ad3_answer (list M)) :=
  match r with
  | Ok (um, pm, energy, st) => Ok ([um], [pm], energy, st)
  | Err e => Err e
  end.
Definition one_graph_lib (lib : ad3_lib) : Prop :=
  (forall U es n k1 k2 t bnb,
     ad3_graphs lib [U] [es] [Pw3 n k1 k2 t] bnb = singly (ad3_graph lib U es t bnb)) /\
  (forall U es p cons bnb,
     ad3_constraineds lib [U] [es] [p] cons bnb = singly (ad3_constrained lib U es p cons bnb)) /\
  (forall U es t bnb um pm energy st, ad3_graph lib U es t bnb = Ok (um, pm, energy, st) ->
     mat_ok um /\ mrows um = mrows U /\ mcols um = mcols U) /\
  (forall U es p cons bnb um pm energy st, ad3_constrained lib U es p cons bnb = Ok (um, pm, energy, st) ->
     mat_ok um /\ mrows um = mrows U /\ mcols um = mcols U).
(** inference through the dispatcher, without relaxation *)
Definition dispatch_solver (b : backends) (method : string) : mat -> pairwise -> list (nat * nat) -> res (list nat) :=
  fun U P es => let! r := inference_dispatch b (Single U P es) (Name method) false [("relaxed"%string, VBool false)] in
                labels_of (fst r).

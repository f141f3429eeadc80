(** Model of the conversions between input formats in examples/plot_snakes_typed.py and
    examples/plot_hidden_snakes_typed.py. *)
From Coq Require Import ZArith.
From Verif Require Export Model.EdgeFeature Model.Typed.

(** [convertToSingleTypeX], plot_snakes_typed.py 44-48, for one instance *)
Definition convert_single (x : ef_x) : typed_x :=
  TypedX [Some (ex_features x)]
         [Some (map (fun e => (Z.of_nat (fst e), Z.of_nat (snd e))) (ex_edges x))]
         [Some (ex_edge_features x)].

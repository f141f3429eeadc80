(** Names of inference methods and whether the package they need is there. *)
From Coq Require Import String.
From Verif Require Export Model.Inference.
Local Open Scope string_scope.

Definition method_name (m : method) : string := match m with Name s => s | WithOptions s _ => s end.

(** the package needed by the method is installed (an unknown name needs none) *)
Definition available (b : backends) (m : string) : bool :=
  if String.eqb m "qpbo" then if b_qpbo b then true else false
  else if String.eqb m "ogm" then if b_ogm b then true else false
  else if (String.eqb m "ad3" || String.eqb m "ad3+")%bool then if b_ad3 b then true else false
  else true.

(** Saving a learner: what counts as text without a conversion, and when a save is due. *)
From Coq Require Import String Ascii ZArith.
From Verif Require Import Model.Logging.

(** no percent sign *)
Fixpoint plain (s : string) : bool :=
  match s with EmptyString => true | String c r => negb (Ascii.eqb c percent) && plain r end.

(** the documentation: "Save learner if iterations is a multiple of save_every or 'final'" *)
Definition due (every : Z) (i : iteration) : Prop :=
  i = Final \/ exists z, i = Iter z /\ every <> 0%Z /\ (every | z)%Z.

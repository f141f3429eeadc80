(** A small pickle: the learner is a number with an optional cache; three bytes are written. *)
From Coq Require Import String Ascii ZArith.
From Verif Require Import Model.Logging Spec.LoggingSpec.

Definition ex18_dump (l : learner nat nat) : list nat * option exn :=
  ([7; match l_cache l with None => 0 | Some None => 1 | Some (Some n) => S (S n) end; l_rest l]%nat, None).
Definition ex18_undump (bs : list nat) : res (learner nat nat) :=
  match bs with
  | [7; 0; r]%nat => Ok (Learner r None)
  | [7; 1; r]%nat => Ok (Learner r (Some None))
  | [7; S (S n); r]%nat => Ok (Learner r (Some (Some n)))
  | _ => Err OtherException
  end.
(** a pickle that fails after one byte *)
Definition ex18_bad_dump (l : learner nat nat) : list nat * option exn := ([7]%nat, Some TypeError).
Definition ex18_open (n : string) : option exn := None.
Definition ex18_files : files nat := fun n => if String.eqb n "model" then Some [7; 1; 3]%nat else None.
Definition ex18_world : world nat nat nat := World ex18_files (Learner 5%nat (Some (Some 9%nat))).

Lemma ex18_roundtrip l : exists bs, ex18_dump l = (bs, None) /\ ex18_undump bs = Ok l.
Proof. destruct l as [r [[c|]|]]; eexists; split; reflexivity. Qed.

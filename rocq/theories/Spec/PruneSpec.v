(** Specification of constraint pruning: every constraint is tagged with the dual values it
    received since it entered the working set, oldest first. *)
From Verif Require Export Base.Sums.

Definition tagged (A : Type) : Type := list (A * list Qc).
(** in how many rounds the dual value was below the limit *)
Definition lows (limit : Qc) (history : list Qc) : nat := length (filter (fun v => Qcltb v limit) history).
(** append one dual value to every history *)
Definition push {A} (e : tagged A) (a : list Qc) : tagged A := zipw (fun p v => (fst p, snd p ++ [v])) e a.
(** a new constraint has no history *)
Definition fresh {A} (new : list A) : tagged A := map (fun c => (c, [])) new.
Definition survivors {A} (limit : Qc) (window : nat) (e : tagged A) : tagged A :=
  filter (fun p => (lows limit (snd p) <=? window)%nat) e.
Definition elements {A} (e : tagged A) : list A := map fst e.
Definition counters {A} (limit : Qc) (e : tagged A) : list nat := map (fun p => lows limit (snd p)) e.
(** the dual values of all samples, one after the other *)
Fixpoint push_all {A} (gs : list (tagged A)) (a : list Qc) : list (tagged A) :=
  match gs with
  | [] => []
  | e :: r => push e (firstn (length e) a) :: push_all r (skipn (length e) a)
  end.

(** Model of pystruct/learners/downhill_simplex_ssvm.py (PrimalDSStructuredSVM).  scipy.optimize.fmin is a parameter: from the
    function and the start it gives (xopt, fopt) or raises what the function raises.  The model object is initialised. *)
From Verif Require Export Model.Learner.

Definition minimizer := (list Qc -> res Qc) -> list Qc -> res (list Qc * Qc).

(** [func], lines 16-24: zip stops at the shorter list, the mean divides by len(X); with C = 0 the division by float(0) of a numpy
    number gives inf or nan *)
Definition ds_objective {X Y} (m : smodel X Y) (C : Qc) (Xs : list X) (Ys : list Y) (w : list Qc) : res Qc :=
  let! cs := mapM (fun p => find_constraint m (fst p) (snd p) w None true) (combine Xs Ys) in
  let objective := lsum (map (fun c => snd (fst c)) cs) in
  let! _ := ensure (negb (length Xs =? 0)%nat) ZeroDivisionError in
  let objective := objective / ofN (length Xs) in
  if Qceqb C 0 then Err NonFinite
  else Ok (objective + normsq w / C / (1 + 1)).

(** 1e-5, line 25 *)
Definition ds_start : Qc := Q2Qc (1 # 100000).

(** [fit], lines 15-29 *)
Definition ds_fit {X Y} (fmin : minimizer) (m : smodel X Y) (C : Qc) (Xs : list X) (Ys : list Y) : res (list Qc) :=
  let f := ds_objective m C Xs Ys in
  let w := repeat ds_start (sm_size m) in
  let! r1 := fmin f (map (fun v => v + 1) w) in
  let! r2 := fmin f w in
  Ok (if Qcltb (snd r1) (snd r2) then fst r1 else fst r2).

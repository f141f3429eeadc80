(** Two models that a learner cannot tell apart on a training set.  The inputs may have
    different formats; the labels are the same. *)
From Verif Require Export Model.Learner Model.OneSlack.

(** Sample [p] in one model is sample [p'] in the other: some set of labels contains the true
    label and everything inference returns, and on it all methods agree, errors included. *)
Definition alike {X X' Y} (m : smodel X Y) (m' : smodel X' Y) (p : X * Y) (p' : X' * Y) : Prop :=
  snd p' = snd p /\
  exists ok : Y -> Prop,
    ok (snd p) /\
    (forall y yt, ok y -> match yt with Some t => ok t | None => True end ->
       sm_joint m (fst p) y yt = sm_joint m' (fst p') y yt) /\
    (forall w, sm_inference m (fst p) w = sm_inference m' (fst p') w) /\
    (forall w y, sm_inference m (fst p) w = Ok y -> ok y) /\
    (forall y w, ok y -> sm_laug m (fst p) y w = sm_laug m' (fst p') y w) /\
    (forall y w y', ok y -> sm_laug m (fst p) y w = Ok y' -> ok y') /\
    (forall y, ok y -> sm_tuple m y = sm_tuple m' y) /\
    (forall y y', ok y -> ok y' -> sm_loss m y y' = sm_loss m' y y' /\ sm_closs m y y' = sm_closs m' y y').
Definition alike_sizes {X X' Y} (m : smodel X Y) (m' : smodel X' Y) : Prop :=
  sm_size m = sm_size m' /\ sm_rescale m = sm_rescale m'.
(** the same, sample by sample *)
Definition alike_samples {X X' Y} (m : smodel X Y) (m' : smodel X' Y) (S : list (X * Y)) (S' : list (X' * Y)) : Prop :=
  alike_sizes m m' /\ Forall2 (alike m m') S S'.
(** the models after switching to another inference method, if there is one *)
Definition same_switch {X X' Y} (sw : option (smodel X Y)) (sw' : option (smodel X' Y)) (S : list (X * Y)) (S' : list (X' * Y)) : Prop :=
  match sw, sw' with
  | Some m, Some m' => alike_samples m m' S S'
  | None, None => True
  | _, _ => False
  end.

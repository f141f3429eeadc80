(** C62: the downhill-simplex learner of learners/downhill_simplex_ssvm.py. *)
From Verif Require Import Model.DownhillSimplex Spec.TaskSpec Proofs.Arrays Proofs.DownhillProofs.

(** C62. With exact loss-augmented inference the minimised function is the mean structured hinge loss plus |w|^2 / (2 C). *)
Theorem C62_value :
  forall X Y (m : smodel X Y) T d w Xs Ys C,
    length Xs = length Ys -> Xs <> [] -> C <> 0 -> length w = d ->
    (forall p, In p (combine Xs Ys) -> implements m T d (fst p) (snd p) /\ exact_laug m T w (fst p) (snd p)) ->
    exists hs, Forall2 (fun p h => is_hinge T w (fst p) (snd p) h) (combine Xs Ys) hs /\
      ds_objective m C Xs Ys w = Ok (lsum hs / ofN (length Xs) + normsq w / ((1 + 1) * C)).
Proof. exact @ds_value. Qed.
(** C62. Whatever the inference, it is objective_primal of the other learners with C / n in place of C, divided by C; both fail
    on the same weights with the same exception. *)
Theorem C62_rescaled_objective :
  forall X Y (m : smodel X Y) C Xs Ys w variant, length Xs = length Ys -> Xs <> [] -> C <> 0 ->
    ds_objective m C Xs Ys w = (let! r := objective_primal m w Xs Ys (C / ofN (length Xs)) variant in Ok (r / C)).
Proof. exact @ds_is_primal. Qed.
(** C62. An empty training set raises ZeroDivisionError at every weight vector. *)
Theorem C62_empty :
  forall X Y (m : smodel X Y) C Ys w, ds_objective m C [] Ys w = Err ZeroDivisionError.
Proof. exact @ds_empty. Qed.
(** C62. fit keeps the run with the smaller reported value, the second one on a tie. *)
Theorem C62_better_run :
  forall X Y (fmin : minimizer) (m : smodel X Y) C Xs Ys w, ds_fit fmin m C Xs Ys = Ok w -> exists w1 v1 w2 v2,
    fmin (ds_objective m C Xs Ys) (repeat (ds_start + 1) (sm_size m)) = Ok (w1, v1) /\
    fmin (ds_objective m C Xs Ys) (repeat ds_start (sm_size m)) = Ok (w2, v2) /\
    ((w = w1 /\ v1 < v2) \/ (w = w2 /\ v2 <= v1)).
Proof. exact @ds_better. Qed.
(** C62. If the simplex search never ends above its start, the result is no worse than either start. *)
Theorem C62_not_worse_than_starts :
  forall X Y (fmin : minimizer) (m : smodel X Y) C Xs Ys w,
    (forall f x0 x v, fmin f x0 = Ok (x, v) -> f x = Ok v /\ exists v0, f x0 = Ok v0 /\ v <= v0) ->
    ds_fit fmin m C Xs Ys = Ok w -> exists v s1 s2,
      ds_objective m C Xs Ys w = Ok v /\
      ds_objective m C Xs Ys (repeat (ds_start + 1) (sm_size m)) = Ok s1 /\
      ds_objective m C Xs Ys (repeat ds_start (sm_size m)) = Ok s2 /\ v <= s1 /\ v <= s2.
Proof. exact @ds_not_worse. Qed.
(** C62. If one of the two runs finds a minimum, the result minimises objective_primal with C / n. *)
Theorem C62_minimises :
  forall X Y (fmin : minimizer) (m : smodel X Y) C Xs Ys w variant d,
    length Xs = length Ys -> Xs <> [] -> 0 < C ->
    (forall f x0 x v, fmin f x0 = Ok (x, v) -> f x = Ok v) ->
    (exists x0 x v, (x0 = repeat ds_start (sm_size m) \/ x0 = repeat (ds_start + 1) (sm_size m)) /\
       fmin (ds_objective m C Xs Ys) x0 = Ok (x, v) /\
       forall w' v', length w' = d -> ds_objective m C Xs Ys w' = Ok v' -> v <= v') ->
    ds_fit fmin m C Xs Ys = Ok w ->
    exists r, objective_primal m w Xs Ys (C / ofN (length Xs)) variant = Ok r /\
      forall w' r', length w' = d -> objective_primal m w' Xs Ys (C / ofN (length Xs)) variant = Ok r' -> r <= r'.
Proof. exact @ds_minimal. Qed.
(** C62. With the same C it is not a check of the other learners: on two samples the exact minimum is not their optimum. *)
Theorem C62_same_C_refuted :
  exists (m : smodel unit bool) C Xs Ys w,
    (exists v, ds_objective m C Xs Ys w = Ok v /\ forall w' v', length w' = 1%nat -> ds_objective m C Xs Ys w' = Ok v' -> v <= v') /\
    forall variant, exists r w' r', length w' = 1%nat /\
      objective_primal m w Xs Ys C variant = Ok r /\ objective_primal m w' Xs Ys C variant = Ok r' /\ r' < r.
Proof. exact ds_same_C_refuted. Qed.

(** the hypotheses are met by two equal samples with hinge max(0, 1 - w) and a search that finds the minimum *)
Example C62_fit_value : ds_fit ex23_fmin ex23_m ex23_half [tt; tt] [true; true] = Ok [ex23_half].
Proof. unfold ds_fit, ex23_fmin. cbn [sm_size ex23_m repeat map]. rewrite !ex23_ds. vm_compute. reflexivity. Qed.
Example C62_descends_met : forall f x0 x v, ex23_fmin f x0 = Ok (x, v) -> f x = Ok v /\ exists v0, f x0 = Ok v0 /\ v <= v0.
Proof. exact ex23_fmin_descends. Qed.
Example C62_minimum_met : exists x v,
  ex23_fmin (ds_objective ex23_m ex23_half [tt; tt] [true; true]) (repeat ds_start (sm_size ex23_m)) = Ok (x, v) /\
  forall w' v', length w' = 1%nat -> ds_objective ex23_m ex23_half [tt; tt] [true; true] w' = Ok v' -> v <= v'.
Proof. exact ex23_fmin_min. Qed.
Example C62_task_met : forall q, implements ex23_m ex23_t 1 tt true /\ exact_laug ex23_m ex23_t [q] tt true.
Proof. exact ex23_met. Qed.

Print Assumptions C62_value.
Print Assumptions C62_rescaled_objective.
Print Assumptions C62_empty.
Print Assumptions C62_better_run.
Print Assumptions C62_not_worse_than_starts.
Print Assumptions C62_minimises.
Print Assumptions C62_same_C_refuted.

(** Specification vocabulary for LatentSSVM (the concave-convex procedure). *)
From Verif Require Export Model.LatentSSVM Spec.SolverSpec Spec.NSlackSpec Spec.OneSlackSpec Spec.LatentSpec.

(** [H] completes the observed outputs of every sample *)
Definition completes {X Y} (E : X -> Y -> Y -> Prop) (Xs : list X) (Ys H : list Y) : Prop :=
  Forall2 (fun p h => E (fst p) (snd p) h) (combine Xs Ys) H.
(** what is found by completing every sample at weights [w] *)
Definition completed_at {X Y} (m : lmodel X Y) (w : list Qc) (Xs : list X) (Ys H : list Y) : Prop :=
  Forall2 (fun p h => lm_latent m (fst p) (snd p) w = Ok h) (combine Xs Ys) H.
(** the loss of an answer does not depend on how the observed output is completed *)
Definition observed_loss {X Y} (T : task X Y) (E : X -> Y -> Y -> Prop) (S : list (X * Y)) : Prop :=
  forall p h h' z, In p S -> E (fst p) (snd p) h -> E (fst p) (snd p) h' -> t_label T (fst p) z -> t_loss T h z = t_loss T h' z.
(** an answer without loss is itself a completion *)
Definition free_completes {X Y} (T : task X Y) (E : X -> Y -> Y -> Prop) (S : list (X * Y)) : Prop :=
  forall p h z, In p S -> E (fst p) (snd p) h -> t_label T (fst p) z -> t_loss T h z <= 0 -> E (fst p) (snd p) z.
(** model [s] computes the task for every completion, with exact loss-augmented inference *)
Definition completed_exact {X Y} (s : smodel X Y) (T : task X Y) (E : X -> Y -> Y -> Prop) (d : nat) (S : list (X * Y)) : Prop :=
  forall p h, In p S -> E (fst p) (snd p) h -> implements s T d (fst p) h /\
    forall w, length w = d -> exact_laug s T w (fst p) h.
(** [yeq] only identifies outputs that are the same for the learner, whatever the completion *)
Definition completed_yeq {X Y} (T : task X Y) (E : X -> Y -> Y -> Prop) (yeq : Y -> Y -> bool) (S : list (X * Y)) : Prop :=
  forall p h a b, In p S -> E (fst p) (snd p) h -> t_label T (fst p) a -> t_label T (fst p) b -> yeq a b = true ->
    t_feat T (fst p) a = t_feat T (fst p) b /\ t_loss T h a = t_loss T h b.
(** completion never fails and always completes *)
Definition completes_all {X Y} (m : lmodel X Y) (E : X -> Y -> Y -> Prop) (d : nat) (S : list (X * Y)) : Prop :=
  forall p w h, In p S -> length w = d -> lm_latent m (fst p) (snd p) w = Ok h -> E (fst p) (snd p) h.
(** the latent objective at [w] is at most the completed objective at any [v], up to [eps] *)
Definition latent_below {X Y} (T : task X Y) (E : X -> Y -> Y -> Prop) (d : nat) (C eps : Qc) (Xs : list X) (Ys H : list Y) (w : list Qc) : Prop :=
  forall gs v hs, latent_hinges T E w (combine Xs Ys) gs -> length v = d -> hinges T v (combine Xs H) hs ->
    primal_value C w gs <= primal_value C v hs + eps.
(** the latent objective does not grow by more than [eps] from [w] to [w'] *)
Definition latent_descends {X Y} (T : task X Y) (E : X -> Y -> Y -> Prop) (C eps : Qc) (S : list (X * Y)) (w w' : list Qc) : Prop :=
  exists gs gs', latent_hinges T E w S gs /\ latent_hinges T E w' S gs' /\ primal_value C w' gs' <= primal_value C w gs + eps.
(** [a] and [b] are successive entries of a list *)
Definition successive {A} (l : list A) (a b : A) : Prop := exists pre post, l = pre ++ a :: b :: post.
(** some latent output changed *)
Definition differ {Y} (ydiff : Y -> Y -> bool) (a b : list Y) : bool := existsb (fun q => ydiff (fst q) (snd q)) (combine a b).
(** one further iteration from (H, b) to (H', b'): H' completes the samples at the weights of b
    and is not H; the learner is then trained on H', with the constraints of b re-derived for H'
    if it has any *)
Definition iterates {X Y B} (ydiff : Y -> Y -> bool) (m : lmodel X Y) (bl : base_learner X Y B) (Xs : list X) (Ys : list Y)
           (q q' : list Y * B) : Prop :=
  completed_at m (bl_w bl (snd q)) Xs Ys (fst q') /\ differ ydiff (fst q') (fst q) = true /\
  exists cs, (match bl_cons bl (snd q) with
              | Some old => exists c, adjust_constraints (lm_s m) (bl_w bl (snd q)) Xs (fst q') old = Ok c /\ cs = Some c
              | None => cs = None
              end) /\ bl_refit bl Xs (fst q') cs (snd q) = Ok (snd q').
Definition nats_eqb (a b : list nat) : bool := if list_eq_dec Nat.eq_dec a b then true else false.
(** samples for LatentGraphCRF with [nl] labels and [nf] features, on graphs where the solver is exact *)
Definition lg_samples (nl nf : nat) (solve : solver) (S : list (graph_x * list nat)) : Prop :=
  Forall (fun p => mat_ok (gx_features (fst p)) /\ mcols (gx_features (fst p)) = nf /\ graph_edges (mrows (gx_features (fst p))) (gx_edges (fst p)) /\
    (0 < mrows (gx_features (fst p)))%nat /\ labelling (mrows (gx_features (fst p))) nl (snd p) /\
    exact_solver_on solve (mrows (gx_features (fst p))) (gx_edges (fst p))) S.
(** guarantee of the n-slack learner with caching tolerance and regularised QP *)
Definition ns_eps (prm : ns_params) (n : nat) : Qc := ns_C prm * (ofN n * small) + qp_reg * (ofN n * (ns_C prm * ns_C prm)).
(** and of the one-slack learner *)
Definition os_eps (prm : os_params) (n : nat) : Qc := o_C prm * ofN n * o_tol prm + qp_reg * (o_C prm * ofN n * (o_C prm * ofN n)).

(** Specification vocabulary for the cutting-plane learners. *)
From Verif Require Export Spec.TaskSpec Spec.QPSpec Model.NSlack.

(** a working-set entry is the constraint of some allowed output of sample [s] *)
Definition valid_con {X Y} (T : task X Y) (s : X * Y) (c : ncon Y) : Prop :=
  let '(yh, delta, loss) := c in
  t_label T (fst s) yh /\ delta = vsub (t_feat T (fst s) (snd s)) (t_feat T (fst s) yh) /\
  loss = t_loss T (snd s) yh.

(** the model computes the task on every sample and its loss-augmented inference returns some
    allowed output, not necessarily the best one *)
Definition oracle_ok {X Y} (m : smodel X Y) (T : task X Y) (d : nat) (S : list (X * Y)) : Prop :=
  forall p, In p S -> implements m T d (fst p) (snd p) /\
    forall w, length w = d -> exists yh, sm_laug m (fst p) (snd p) w = Ok yh /\ t_label T (fst p) yh.
(** ... and it is the best one *)
Definition oracle_exact {X Y} (m : smodel X Y) (T : task X Y) (d : nat) (S : list (X * Y)) : Prop :=
  forall p, In p S -> implements m T d (fst p) (snd p) /\
    forall w, length w = d -> exact_laug m T w (fst p) (snd p).

(** [yeq] only identifies outputs that are the same for the learner *)
Definition yeq_ok {X Y} (T : task X Y) (yeq : Y -> Y -> bool) (S : list (X * Y)) : Prop :=
  forall p a b, In p S -> t_label T (fst p) a -> t_label T (fst p) b -> yeq a b = true ->
    t_feat T (fst p) a = t_feat T (fst p) b /\ t_loss T (snd p) a = t_loss T (snd p) b.
(** outputs without loss have the joint feature of the true output *)
Definition zero_loss_same {X Y} (T : task X Y) (S : list (X * Y)) : Prop :=
  forall p y', In p S -> t_label T (fst p) y' -> t_loss T (snd p) y' <= 0 ->
    t_feat T (fst p) y' = t_feat T (fst p) (snd p).
(** hinge losses of all samples *)
Definition hinges {X Y} (T : task X Y) (w : list Qc) (S : list (X * Y)) (hs : list Qc) : Prop :=
  Forall2 (fun p h => is_hinge T w (fst p) (snd p) h) S hs.

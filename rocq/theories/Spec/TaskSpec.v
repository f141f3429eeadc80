(** Specification of a structured prediction task: which outputs are allowed for an input,
    the joint feature of a pair, the loss of predicting y' instead of y. *)
From Verif Require Export Base.Sums Model.Learner.

Record task (X Y : Type) := Task {
  t_label : X -> Y -> Prop;
  t_feat : X -> Y -> list Qc;
  t_loss : Y -> Y -> Qc }.
Arguments Task {X Y}. Arguments t_label {X Y}. Arguments t_feat {X Y}. Arguments t_loss {X Y}.

(** how much output [y'] violates its margin on sample (x, y) *)
Definition margin {X Y} (T : task X Y) (w : list Qc) (x : X) (y y' : Y) : Qc :=
  t_loss T y y' - (dot w (t_feat T x y) - dot w (t_feat T x y')).

(** [h] is the structured hinge loss: the largest margin violation over all outputs *)
Definition is_hinge {X Y} (T : task X Y) (w : list Qc) (x : X) (y : Y) (h : Qc) : Prop :=
  (exists y', t_label T x y' /\ margin T w x y y' = h) /\
  (forall y', t_label T x y' -> margin T w x y y' <= h).

(** A model object computes the task on sample (x, y): joint features of [d] entries, losses
    of every allowed output; the true output is allowed and costs nothing. *)
Definition implements {X Y} (m : smodel X Y) (T : task X Y) (d : nat) (x : X) (y : Y) : Prop :=
  t_label T x y /\ t_loss T y y = 0 /\
  (forall y', t_label T x y' ->
     length (t_feat T x y') = d /\
     sm_joint m x y' (if sm_rescale m then Some y else None) = Ok (t_feat T x y') /\
     (if sm_tuple m y' then sm_closs m y y' else sm_loss m y y') = Ok (t_loss T y y')).

(** loss-augmented inference is exact at (x, y, w) *)
Definition exact_laug {X Y} (m : smodel X Y) (T : task X Y) (w : list Qc) (x : X) (y : Y) : Prop :=
  exists yh, sm_laug m x y w = Ok yh /\ t_label T x yh /\
    forall y', t_label T x y' ->
      dot w (t_feat T x y') + t_loss T y y' <= dot w (t_feat T x yh) + t_loss T y yh.

(** inference is exact at (x, w) *)
Definition exact_inference {X Y} (m : smodel X Y) (T : task X Y) (w : list Qc) (x : X) : Prop :=
  exists yp, sm_inference m x w = Ok yp /\ t_label T x yp /\
    forall y', t_label T x y' -> dot w (t_feat T x y') <= dot w (t_feat T x yp).

(** structured SVM objective with slack [hs] *)
Definition primal_value (C : Qc) (w : list Qc) (hs : list Qc) : Qc :=
  C * lsum hs + normsq w / (1 + 1).

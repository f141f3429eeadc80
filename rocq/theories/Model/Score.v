(** Model of BaseSSVM.score and of the class-weight set-up (learners/ssvm.py, models/base.py). *)
From Verif Require Export Model.Loss.

(** [BaseSSVM.score], ssvm.py 59-84, with [Y_pred] = self.predict(X).  The losses are summed over
    zip(Y, Y_pred), the maximal losses over Y.  The sums are numpy numbers, so that dividing by
    0 gives nan or inf instead of an exception. *)
Definition ssvm_score (cw : option (list Qc)) (Y Y_pred : list (list nat)) : res Qc :=
  let! losses := batch_loss cw Y Y_pred in
  let! max_losses := mapM (max_loss cw) Y in
  if Qceqb (lsum max_losses) 0 then Err NonFinite
  else Ok (1 - lsum losses / lsum max_losses).

(** [_set_class_weight], base.py 100-119, on an initialised model; [n_things] is n_labels if the
    attribute exists, else n_states.  Result: class_weight and uniform_class_weight. *)
Definition set_class_weight (n_things : nat) (cw : option (list Qc)) : res (list Qc * bool) :=
  match cw with
  | Some c => if (length c =? n_things)%nat then Ok (c, false) else Err ValueError
  | None => Ok (repeat 1 n_things, true)
  end.

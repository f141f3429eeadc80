(** Model of the Hamming loss (pystruct/models/base.py) and of loss augmentation
    (src/utils.pyx).  [cw = None] models a model without attribute class_weight. *)
From Verif Require Export Model.Numpy.

(** [self.class_weight[y]] *)
Definition class_weights (cw : list Qc) (y : list nat) : res (list Qc) := mapM (index cw) y.

(** (y != y_hat) as 0/1 numbers.  Arrays of different lengths: recent numpy raises
    ValueError (older versions compared unequal as a whole); modelled as ValueError. *)
Definition mismatch (y y_hat : list nat) : res (list Qc) :=
  if (length y =? length y_hat)%nat
  then Ok (zipw (fun a b => ind (negb (a =? b)%nat)) y y_hat)
  else Err ValueError.

(** [StructuredModel.loss] on integer labellings, base.py 60-66. *)
Definition loss (cw : option (list Qc)) (y y_hat : list nat) : res Qc :=
  match cw with
  | Some c =>
      let! cy := class_weights c y in
      let! d := mismatch y y_hat in
      Ok (lsum (zipw Qcmult cy d))
  | None => let! d := mismatch y y_hat in Ok (lsum d)
  end.

(** [StructuredModel.max_loss], base.py 72-76. *)
Definition max_loss (cw : option (list Qc)) (y : list nat) : res Qc :=
  match cw with
  | Some c => let! cy := class_weights c y in Ok (lsum cy)
  | None => Ok (ofN (length y))
  end.

(** [StructuredModel.continuous_loss] for 1-d y, base.py 78-89; y_hat has shape (n, n_states). *)
Definition continuous_loss (cw : option (list Qc)) (y : list nat) (y_hat : mat) : res Qc :=
  let! _ := ensure ((length y <=? mrows y_hat) && forallb (fun s => s <? mcols y_hat) y)%nat IndexError in
  let result := tab1 (length y) (fun i => 1 - mget y_hat i (nth i y O)) in
  match cw with
  | Some c => let! cy := class_weights c y in Ok (lsum (zipw Qcmult cy result))
  | None => Ok (lsum result)
  end.

(** [StructuredModel.batch_loss], base.py 68-70 (zip stops at the shorter list). *)
Definition batch_loss (cw : option (list Qc)) (Y Y_hat : list (list nat)) : res (list Qc) :=
  mapM (fun p => loss cw (fst p) (snd p)) (combine Y Y_hat).

(** [loss_augment_unaries], src/utils.pyx 21-28 (boundscheck=False). *)
Definition loss_augment_unaries (u : mat) (y : list nat) (cw : list Qc) : res mat :=
  let! rows := mapM (fun i =>
      mapM (fun s =>
        let! yi := cindex y i in
        if (s =? yi)%nat then Ok (mget u i s)
        else let! c := cindex cw yi in Ok (mget u i s + c))
      (seq 0 (mcols u)))
    (seq 0 (mrows u)) in
  Ok (Mat (mrows u) (mcols u) rows).

(** What the learners see of a model object, and the functions of
    pystruct/utils/inference.py shared by them. *)
From Verif Require Export Model.Numpy.

(** The methods of a model used by the learners.  [sm_rescale] is
    getattr(model, 'rescale_C', False); [sm_tuple y] is isinstance(y, tuple), i.e. y is a
    relaxed solution; [sm_closs y y_hat] is continuous_loss(y, y_hat[0]). *)
Record smodel (X Y : Type) := SModel {
  sm_size : nat;
  sm_rescale : bool;
  sm_joint : X -> Y -> option Y -> res (list Qc);
  sm_inference : X -> list Qc -> res Y;
  sm_laug : X -> Y -> list Qc -> res Y;
  sm_tuple : Y -> bool;
  sm_loss : Y -> Y -> res Qc;
  sm_closs : Y -> Y -> res Qc }.
Arguments SModel {X Y}.
Arguments sm_size {X Y}. Arguments sm_rescale {X Y}. Arguments sm_joint {X Y}.
Arguments sm_inference {X Y}. Arguments sm_laug {X Y}. Arguments sm_tuple {X Y}.
Arguments sm_loss {X Y}. Arguments sm_closs {X Y}.

(** a + b on 1-d arrays of equal length *)
Definition np_vadd (a b : list Qc) : res (list Qc) :=
  if (length a =? length b)%nat then Ok (vadd a b) else Err ValueError.
Definition np_vsub (a b : list Qc) : res (list Qc) :=
  if (length a =? length b)%nat then Ok (vsub a b) else Err ValueError.

(** [find_constraint], utils/inference.py 54-83: (y_hat, delta_joint_feature, slack, loss) *)
Definition find_constraint {X Y} (m : smodel X Y) (x : X) (y : Y) (w : list Qc)
           (y_hat : option Y) (compute_difference : bool) : res (Y * list Qc * Qc * Qc) :=
  let! yh := (match y_hat with
              | Some v => Ok v
              | None => sm_laug m x y w
              end) in
  let! f_hat := sm_joint m x yh (if sm_rescale m then Some y else None) in
  let neg := vscale (- (1)) f_hat in
  let! delta := (if compute_difference
                 then let! f := sm_joint m x y (if sm_rescale m then Some y else None) in
                      np_vadd neg f
                 else Ok neg) in
  let! loss := (if sm_tuple m yh then sm_closs m y yh else sm_loss m y yh) in
  let! d := np_dot w delta in
  Ok (yh, delta, Qcmax (loss - d) 0, loss).

(** [objective_primal], utils/inference.py 115-127.
    Parallel(n_jobs=n_jobs)(...) maps the function over the samples, whatever n_jobs. *)
Inductive slack_variant := NSlack | OneSlack.
Definition objective_primal {X Y} (m : smodel X Y) (w : list Qc) (Xs : list X) (Ys : list Y)
           (C : Qc) (variant : slack_variant) : res Qc :=
  let! cs := mapM (fun p => find_constraint m (fst p) (snd p) w None true) (combine Xs Ys) in
  (* list(zip( *constraints))[2] fails on an empty list *)
  let! _ := ensure (negb (length cs =? 0)%nat) IndexError in
  let slacks := map (fun c => snd (fst c)) cs in
  let slacks := match variant with
                | NSlack => map (fun s => Qcmax s 0) slacks
                | OneSlack => slacks
                end in
  Ok (Qcmax (lsum slacks) 0 * C + normsq w / (1 + 1)).

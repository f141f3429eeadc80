(** Model of pystruct/models/unstructured_svm.py (BinaryClf, MultiClassClf) and of
    crammer_singer_joint_feature (src/utils.pyx), on initialised models. *)
From Coq Require Import ZArith.
From Verif Require Export Model.Numpy.

(** ** BinaryClf.  Labels are integers, since loss-augmented inference can return 0. *)

(** [joint_feature], unstructured_svm.py 44-65 *)
Definition bc_joint_feature (x : list Qc) (y : Z) : res (list Qc) :=
  let! _ := ensure ((y =? -1) || (y =? 1))%Z ValueError in
  Ok (map (fun v => ofZ y * v / (1 + 1)) x).

(** [batch_joint_feature], lines 67-68; takes two arguments only.  X * Y[:, newaxis] is
    modelled for equal lengths (numpy would also stretch a single row or label). *)
Definition bc_batch_joint_feature (X : mat) (Y : list Z) : res (list Qc) :=
  let! _ := ensure (mrows X =? length Y)%nat ValueError in
  Ok (tab1 (mcols X) (fun j => sumn (mrows X) (fun i => mget X i j * ofZ (nth i Y 0%Z) / (1 + 1)))).

(** [inference], lines 70-93: 2 * (np.dot(x, w) >= 0) - 1 *)
Definition bc_decide (d : Qc) : Z := if Qcleb 0 d then 1%Z else (-1)%Z.
Definition bc_inference (x w : list Qc) : res Z :=
  let! d := np_dot x w in Ok (bc_decide d).
(** [batch_inference], lines 95-96 *)
Definition mat_vec (X : mat) (w : list Qc) : res (list Qc) :=
  if (mcols X =? length w)%nat
  then Ok (tab1 (mrows X) (fun i => sumn (mcols X) (fun j => mget X i j * get1 w j)))
  else Err ValueError.
Definition bc_batch_inference (X : mat) (w : list Qc) : res (list Z) :=
  let! d := mat_vec X w in Ok (map bc_decide d).

(** numpy.sign *)
Definition np_sign (d : Qc) : Z :=
  if Qcltb 0 d then 1%Z else if Qcltb d 0 then (-1)%Z else 0%Z.
(** [loss_augmented_inference], lines 98-124 *)
Definition bc_laug (x : list Qc) (y : Z) (w : list Qc) : res Z :=
  let! d := np_dot x w in Ok (np_sign (d - ofZ y)).
(** [batch_loss_augmented_inference], lines 126-127 *)
Definition bc_batch_laug (X : mat) (Y : list Z) (w : list Qc) : res (list Z) :=
  let! d := mat_vec X w in
  let! _ := ensure (length d =? length Y)%nat ValueError in
  Ok (zipw (fun a y => np_sign (a - ofZ y)) d Y).

(** [loss] inherited from StructuredModel (base.py 60-66, no class_weight attribute) *)
Definition bc_loss (y y_hat : Z) : Qc := ind (negb (y =? y_hat)%Z).
(** [batch_loss], lines 129-130, as 0/1 numbers *)
Definition bc_batch_loss (Y Y_hat : list Z) : res (list Qc) :=
  let! _ := ensure (length Y =? length Y_hat)%nat ValueError in
  Ok (zipw bc_loss Y Y_hat).

(** ** MultiClassClf *)
Record mc_clf := MC {
  mc_states : nat;
  mc_features : nat;
  mc_cw : list Qc;          (* class_weight *)
  mc_uniform : bool;        (* uniform_class_weight *)
  mc_rescale : bool }.      (* rescale_C *)

(** [_set_size_joint_feature], lines 176-178 *)
Definition mc_size (m : mc_clf) : nat := (mc_states m * mc_features m)%nat.

(** assignment [result[y, :] = x]: x of length n_features, or of length one (broadcast) *)
Definition bcast_row (F : nat) (x : list Qc) : res (list Qc) :=
  if (length x =? F)%nat then Ok x
  else if (length x =? 1)%nat then Ok (repeat (get1 x 0) F)
  else Err ValueError.

(** [joint_feature], lines 201-233 *)
Definition mc_joint_feature (m : mc_clf) (x : list Qc) (y : nat) (y_true : option nat)
  : res (list Qc) :=
  let! _ := ensure (y <? mc_states m)%nat IndexError in
  let! row := bcast_row (mc_features m) x in
  let result := mtab (mc_states m) (mc_features m) (fun s j => if (s =? y)%nat then get1 row j else 0) in
  if mc_rescale m then
    match y_true with
    | None => Err ValueError
    | Some t =>
        let! c := index (mc_cw m) t in
        Ok (ravel (mtab (mc_states m) (mc_features m) (fun s j => mget result s j * c)))
    end
  else Ok (ravel result).

(** crammer_singer_joint_feature, src/utils.pyx 14-19, boundscheck=False *)
Fixpoint cs_loop (X : list (list Qc)) (Y : list nat) (out : mat) : res mat :=
  match X with
  | [] => Ok out
  | row :: X' =>
      match Y with
      | [] => Err OutOfBounds
      | y :: Y' =>
          let! _ := ensure (y <? mrows out)%nat OutOfBounds in
          let! _ := ensure (length row <=? mcols out)%nat OutOfBounds in
          cs_loop X' Y' (mtab (mrows out) (mcols out)
             (fun s j => if (s =? y)%nat then mget out s j + get1 row j else mget out s j))
      end
  end.

(** [batch_joint_feature], lines 235-251.  Boolean masks of the wrong length raise
    IndexError. *)
Definition masked {A} (mask : list bool) (l : list A) : res (list A) :=
  if (length mask =? length l)%nat
  then Ok (map snd (filter fst (combine mask l)))
  else Err IndexError.
Definition mc_class_sum (m : mc_clf) (X : mat) (Y Y_true : list nat) (l : nat) : res (list Qc) :=
  let mask := map (fun y => (y =? l)%nat) Y in
  let! yt := masked mask Y_true in
  let! cw := mapM (index (mc_cw m)) yt in
  let! rows := masked mask (mdat X) in
  bcast_row (mc_features m)
    (tab1 (mcols X) (fun j => lsum (zipw (fun row c => get1 row j * c) rows cw))).
Definition mc_batch_joint_feature (m : mc_clf) (X : mat) (Y : list nat) (Y_true : option (list nat))
  : res (list Qc) :=
  if mc_rescale m then
    match Y_true with
    | None => Err ValueError
    | Some yt =>
        let! rows := mapM (mc_class_sum m X Y yt) (seq 0 (mc_states m)) in
        Ok (concat rows)
    end
  else
    let! _ := ensure (mrows X =? length Y)%nat AssertionError in
    let! _ := ensure (mcols X =? mc_features m)%nat AssertionError in
    let! out := cs_loop (mdat X) Y (mat_zeros (mc_states m) (mc_features m)) in
    Ok (ravel out).

(** w.reshape(self.n_states, -1) *)
Definition reshape_auto (w : list Qc) (k : nat) : res mat :=
  if (k =? 0)%nat then Err ValueError else reshape w k (length w / k).

(** scores = np.dot(w.reshape(self.n_states, -1), x) *)
Definition mc_scores (m : mc_clf) (x w : list Qc) : res (list Qc) :=
  let! W := reshape_auto w (mc_states m) in
  mat_vec W x.

(** [inference], lines 253-280; the variant with return_energy=True also returns the maximum *)
Definition mc_inference (m : mc_clf) (x w : list Qc) : res nat :=
  let! s := mc_scores m x w in np_argmax s.
Definition mc_inference_energy (m : mc_clf) (x w : list Qc) : res (nat * Qc) :=
  let! s := mc_scores m x w in
  let! a := np_argmax s in
  let! v := np_max s in
  Ok (a, v).

(** [loss_augmented_inference], lines 282-315 *)
Definition mc_augmented_scores (m : mc_clf) (x : list Qc) (y : nat) (w : list Qc) : res (list Qc) :=
  let! s := mc_scores m x w in
  let! c := (if mc_rescale m then Ok 1 else index (mc_cw m) y) in
  Ok (tab1 (length s) (fun t => if (t =? y)%nat then get1 s t else get1 s t + c)).
Definition mc_laug (m : mc_clf) (x : list Qc) (y : nat) (w : list Qc) : res nat :=
  let! s := mc_augmented_scores m x y w in np_argmax s.
Definition mc_laug_energy (m : mc_clf) (x : list Qc) (y : nat) (w : list Qc) : res (nat * Qc) :=
  let! s := mc_augmented_scores m x y w in
  let! a := np_argmax s in
  let! v := np_max s in
  Ok (a, v).

(** scores = np.dot(X, w.reshape(self.n_states, -1).T) *)
Definition mc_batch_scores (m : mc_clf) (X : mat) (w : list Qc) : res mat :=
  let! W := reshape_auto w (mc_states m) in
  mat_mul X (mat_T W).

(** scores[mask] += vals : the masked entries in row-major order consume vals *)
Fixpoint add_masked_row (mask : list bool) (row vals : list Qc) : list Qc * list Qc :=
  match mask, row with
  | b :: mask', a :: row' =>
      if b then
        match vals with
        | v :: vals' => let '(r, rest) := add_masked_row mask' row' vals' in (a + v :: r, rest)
        | [] => let '(r, rest) := add_masked_row mask' row' [] in (a :: r, rest)
        end
      else let '(r, rest) := add_masked_row mask' row' vals in (a :: r, rest)
  | _, _ => ([], vals)
  end.
Fixpoint add_masked (masks : list (list bool)) (rows : list (list Qc)) (vals : list Qc)
  : list (list Qc) :=
  match masks, rows with
  | mk :: masks', r :: rows' =>
      let '(r', rest) := add_masked_row mk r vals in r' :: add_masked masks' rows' rest
  | _, _ => []
  end.
Definition count_true (masks : list (list bool)) : nat := length (filter (fun b => b) (concat masks)).

(** [batch_loss_augmented_inference], lines 317-325 *)
Definition mc_batch_laug (m : mc_clf) (X : mat) (Y : list nat) (w : list Qc) : res (list nat) :=
  let! scores := mc_batch_scores m X w in
  let k := mc_states m in
  let masks := map (fun y => map (fun s => negb (s =? y)%nat) (seq 0 k)) Y in
  let! scores' :=
    (if mc_rescale m || mc_uniform m
     then
       let! _ := ensure (mrows scores =? length Y)%nat IndexError in
       Ok (add_masked masks (mdat scores) (repeat 1 (count_true masks)))
     else
       let! cy := mapM (index (mc_cw m)) Y in
       let vals := concat (map (fun c => repeat c (k - 1)) cy) in
       let! _ := ensure (mrows scores =? length Y)%nat IndexError in
       let! _ := ensure (length vals =? count_true masks)%nat ValueError in
       Ok (add_masked masks (mdat scores) vals)) in
  mapM np_argmax scores'.

(** [batch_inference], lines 327-329 *)
Definition mc_batch_inference (m : mc_clf) (X : mat) (w : list Qc) : res (list nat) :=
  let! scores := mc_batch_scores m X w in
  mapM np_argmax (mdat scores).

(** [loss], lines 334-335, and [batch_loss], lines 331-332 *)
Definition mc_loss (m : mc_clf) (y y_hat : nat) : res Qc :=
  let! c := index (mc_cw m) y in Ok (c * ind (negb (y =? y_hat)%nat)).
Definition mc_batch_loss (m : mc_clf) (Y Y_hat : list nat) : res (list Qc) :=
  let! cy := mapM (index (mc_cw m)) Y in
  let! _ := ensure (length Y =? length Y_hat)%nat ValueError in
  Ok (zipw Qcmult cy (zipw (fun a b => ind (negb (a =? b)%nat)) Y Y_hat)).

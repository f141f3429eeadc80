(** Model of pystruct/models/multilabel_svm.py (MultiLabelClf) on an initialised model. *)
From Coq Require Import ZArith.
From Verif Require Export Model.CRF.

Record ml_clf := ML { ml_labels : nat; ml_features : nat; ml_edges : list (nat * nat) }.

(** a 0/1 vector over the labels, or a relaxed solution: y_cont (n_labels, 2) and pairwise
    marginals (n_edges, 4) *)
Inductive ml_label :=
| MDiscrete (y : list nat)
| MRelaxed (y_cont : mat) (pw : mat).

(** [_set_size_joint_feature], multilabel_svm.py 43-49 *)
Definition ml_size (m : ml_clf) : nat := (ml_features m * ml_labels m + 4 * length (ml_edges m))%nat.

(** [_get_unary_potentials], lines 73-77 *)
Definition ml_unary (m : ml_clf) (x w : list Qc) : res mat :=
  let L := ml_labels m in let F := ml_features m in
  let! p := reshape (firstn (L * F) w) L F in
  let! _ := ensure (length x =? F)%nat ValueError in
  let u := tab1 L (fun l => sumn F (fun f => get1 x f * mget p l f)) in
  Ok (mtab L 2 (fun l s => if (s =? 0)%nat then - get1 u l else get1 u l)).

(** [_get_pairwise_potentials], lines 79-82 *)
Definition ml_pairwise (m : ml_clf) (w : list Qc) : res pairwise :=
  let E := length (ml_edges m) in
  let pw := skipn (ml_labels m * ml_features m) w in
  if (length pw =? E * 4)%nat
  then Ok (Pw3 E 2 2 (map (fun e => tab2 2 2 (fun s t => get1 pw (e * 4 + (s * 2 + t)))) (seq 0 E)))
  else Err ValueError.

(** pw = zeros((2, 2)); pw[y[edge[0]], y[edge[1]]] = 1, lines 96-99 *)
Definition edge_indicator (y : list nat) (e : nat * nat) : res (list (list Qc)) :=
  let! a := index y (fst e) in
  let! b := index y (snd e) in
  let! _ := ensure ((a <? 2) && (b <? 2))%nat IndexError in
  Ok (tab2 2 2 (fun s t => ind ((s =? a) && (t =? b))%nat)).

(** the rows x * y_signs[l] *)
Definition signed_rows (x signs : list Qc) : list Qc := concat (map (fun s => map (fun v => v * s) x) signs).

(** [joint_feature], lines 84-107 *)
Definition ml_joint_feature (m : ml_clf) (x : list Qc) (y : ml_label) : res (list Qc) :=
  match y with
  | MRelaxed yc pw =>
      let! _ := ensure (1 <? mcols yc)%nat IndexError in
      let signs := tab1 (mrows yc) (fun l => (1 + 1) * mget yc l 1 - 1) in
      Ok (signed_rows x signs ++ ravel pw)
  | MDiscrete yl =>
      let signs := map (fun s => ofZ (2 * Z.of_nat s - 1)) yl in
      let! pw := mapM (edge_indicator yl) (ml_edges m) in
      Ok (signed_rows x signs ++ concat (concat pw))
  end.

(** CRF.inference and CRF.loss_augmented_inference, crf.py 62-118, 120-183.  class_weight is
    ones(n_labels): _set_class_weight (base.py 106-119) sizes it by n_labels. *)
Definition ml_inference (solve : solver) (m : ml_clf) (x w : list Qc) : res (list nat) :=
  let! _ := check_size_w (ml_size m) w in
  let! U := ml_unary m x w in
  let! P := ml_pairwise m w in
  solve U P (ml_edges m).
Definition ml_class_weight (m : ml_clf) : list Qc := repeat 1 (ml_labels m).
Definition ml_loss_augmented_inference (solve : solver) (m : ml_clf) (x : list Qc) (y : list nat) (w : list Qc)
  : res (list nat) :=
  let! _ := check_size_w (ml_size m) w in
  let! U := ml_unary m x w in
  let! P := ml_pairwise m w in
  let! U' := loss_augment_unaries U y (ml_class_weight m) in
  solve U' P (ml_edges m).

(** Construction and [initialize] of the model classes: which sizes are taken from the data.

    The methods assign attributes before they have finished checking, so every step returns the
    attributes as they are afterwards together with the exception, if any.

    crf.py 8-41 (CRF, GridCRF), graph_crf.py 87-106, chain_crf.py 62-78,
    edge_feature_graph_crf.py 57-102, grid_crf.py 118-137, unstructured_svm.py 26-38 and 167-195,
    multilabel_svm.py 38-67, latent_graph_crf.py 102-142, latent_node_crf.py 102-150 and 383-435,
    base.py 100-119. *)
From Coq Require Import ZArith.
From Verif Require Export Model.Numpy.

(** [a_things] is the attribute counted in the data: n_states, or n_labels for the classes that
    have both. *)
Record attrs := Attrs {
  a_things : option nat;
  a_features : option nat;
  a_size : option nat;                (* size_joint_feature; None: no such attribute *)
  a_cw : option (list Qc);            (* class_weight *)
  a_uniform : option bool }.          (* uniform_class_weight; None: no such attribute *)
Definition set_things k a := Attrs (Some k) (a_features a) (a_size a) (a_cw a) (a_uniform a).
Definition set_features f a := Attrs (a_things a) (Some f) (a_size a) (a_cw a) (a_uniform a).

(** [_set_size_joint_feature]: the new size, if it can be computed, and the exception *)
Notation sizer := (option nat -> option nat -> option nat * option exn) (only parsing).
Definition both (f : nat -> nat -> nat) : sizer :=
  fun t nf => match t, nf with Some t, Some nf => (Some (f t nf), None) | _, _ => (None, None) end.
(** graph_crf.py 94-105 *)
Definition graph_sizer (directed : bool) : sizer :=
  both (fun S F => if directed then S * F + S * S else S * F + S * (S + 1) / 2)%nat.
(** unstructured_svm.py 176-178 *)
Definition mc_sizer : sizer := both (fun S F => S * F)%nat.
(** edge_feature_graph_crf.py 73-91; [sym] and [anti] are the declared edge features *)
Definition ef_sizer (ne : option nat) (sym anti : list nat) : sizer := fun t nf =>
  let size := match ne with Some e => fst (both (fun S F => S * F + e * (S * S))%nat t nf) | None => None end in
  match ne with
  | None => (size, None)
  | Some e =>
      if existsb (fun i => (e <=? i)%nat) (sym ++ anti) then (size, Some ValueError)
      else if existsb (fun i => existsb (Nat.eqb i) anti) sym then (size, Some ValueError)
      else (size, None)
  end.
(** grid_crf.py 126-130 *)
Definition dgrid_sizer (ne : nat) : sizer := both (fun S F => S * F + ne * (S * S))%nat.
(** latent_graph_crf.py 102-125, for n_states_per_label an integer or a sequence *)
Definition lg_sizer (spl : nat + list nat) : sizer := fun t nf =>
  match t, nf with
  | Some L, Some F =>
      match spl with
      | inl k => graph_sizer false (Some (L * k)%nat) (Some F)
      | inr l => if (length l =? L)%nat then graph_sizer false (Some (list_sum l)) (Some F) else (None, Some ValueError)
      end
  | _, _ => (None, None)
  end.
(** latent_node_crf.py 121-132: n_labels labels and [hidden] further states *)
Definition ln_sizer (hidden : nat) (node_features : bool) : sizer :=
  both (fun L F => let S := L + hidden in (if node_features then S else L) * F + S * (S + 1) / 2)%nat.
(** latent_node_crf.py 424-435 *)
Definition el_sizer (hidden ne : nat) (node_features : bool) : sizer :=
  both (fun L F => let S := L + hidden in (if node_features then S else L) * F + ne * (S * S))%nat.
(** multilabel_svm.py 44-49: n_states is 2, so only n_features is tested; an n_labels of None is
    multiplied *)
Definition ml_sizer (n_edges : nat) : sizer := fun t nf =>
  match nf with
  | None => (None, None)
  | Some F => match t with Some L => (Some (F * L + 4 * n_edges)%nat, None) | None => (None, Some TypeError) end
  end.

Definition set_size (sz : sizer) (a : attrs) : attrs * option exn :=
  let '(d, e) := sz (a_things a) (a_features a) in
  (Attrs (a_things a) (a_features a) (match d with Some _ => d | None => a_size a end) (a_cw a) (a_uniform a), e).

(** [_set_class_weight], base.py 100-119.  A size without n_states cannot be reached. *)
Definition set_class_weight (a : attrs) : attrs * option exn :=
  match a_size a, a_things a with
  | Some _, Some n =>
      match a_cw a with
      | Some c => if (length c =? n)%nat
                  then (Attrs (a_things a) (a_features a) (a_size a) (Some c) (Some false), None)
                  else (a, Some ValueError)
      | None => (Attrs (a_things a) (a_features a) (a_size a) (Some (repeat 1 n)) (Some true), None)
      end
  | Some _, None => (a, Some TypeError)
  | None, _ => (a, None)
  end.
Definition finish (sz : sizer) (a : attrs) : attrs * option exn :=
  let '(a', e) := set_size sz a in
  match e with Some e => (a', Some e) | None => set_class_weight a' end.

(** the end of every __init__ *)
Definition construct (sz : sizer) (things features : option nat) (cw : option (list Qc)) : attrs * option exn :=
  finish sz (Attrs things features None cw None).

(** [initialize]: the number of features of the data, then the number of things *)
Definition initialize (sz : sizer) (nf nt : res nat) (a : attrs) : attrs * option exn :=
  match nf with
  | Err e => (a, Some e)
  | Ok nf =>
      let known := match a_features a with Some f => (f =? nf)%nat | None => true end in
      if known then
        let a := set_features nf a in
        match nt with
        | Err e => (a, Some e)
        | Ok nt =>
            let known := match a_things a with Some t => (t =? nt)%nat | None => true end in
            if known then finish sz (set_things nt a) else (a, Some ValueError)
        end
      else (a, Some ValueError)
  end.

(** X[0][0].shape[1], resp. X[0].shape[1] for chains: only the first sample is looked at *)
Definition first_cols (Xs : list mat) : res nat :=
  match Xs with [] => Err IndexError | m :: _ => Ok (mcols m) end.
(** len(np.unique(np.hstack([y.ravel() for y in Y]))); np.hstack([]) is an error *)
Definition n_unique (Ys : list (list Z)) : res nat :=
  match Ys with [] => Err ValueError | _ => Ok (length (nodup Z.eq_dec (concat Ys))) end.

(** GraphCRF, GridCRF, ChainCRF *)
Definition graph_initialize (directed : bool) (Xs : list mat) (Ys : list (list Z)) (a : attrs) :=
  initialize (graph_sizer directed) (first_cols Xs) (n_unique Ys) a.
(** MultiClassClf: X is one array *)
Definition mc_initialize (X : mat) (Y : list Z) (a : attrs) :=
  initialize mc_sizer (Ok (mcols X)) (n_unique (map (fun y => [y]) Y)) a.
(** MultiLabelClf: Y is a 2-d array *)
Definition ml_initialize (n_edges : nat) (X : mat) (label_cols : nat) (a : attrs) :=
  initialize (ml_sizer n_edges) (Ok (mcols X)) (Ok label_cols) a.
(** EdgeFeatureGraphCRF: n_edge_features first, then CRF.initialize; [edge_cols] is
    X[0][2].shape[1] *)
Definition ef_initialize (sym anti : list nat) (edge_cols : res nat) (Xs : list mat) (Ys : list (list Z))
           (ne : option nat) (a : attrs) : option nat * (attrs * option exn) :=
  match edge_cols with
  | Err e => (ne, (a, Some e))
  | Ok k =>
      let known := match ne with Some e => (e =? k)%nat | None => true end in
      if known then (Some k, initialize (ef_sizer (Some k) sym anti) (first_cols Xs) (n_unique Ys) a)
      else (ne, (a, Some ValueError))
  end.
(** BinaryClf: size_joint_feature is the number of features *)
Definition bc_initialize (X : mat) (size : option nat) : option nat * option exn :=
  match size with
  | None => (Some (mcols X), None)
  | Some s => if (s =? mcols X)%nat then (size, None) else (size, Some ValueError)
  end.

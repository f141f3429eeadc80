(** Model of pystruct/models/edge_feature_graph_crf.py with symmetric_edge_features and antisymmetric_edge_features
    that may be negative, as the constructor accepts them. *)
From Coq Require Import ZArith.
From Verif Require Export Model.EdgeFeature Model.HiddenSnakes.

Record efz_crf := EFZ { efz_states : nat; efz_features : nat; efz_edge_features : nat; efz_sym : list Z; efz_anti : list Z }.

(** the checks of [_set_size_joint_feature], lines 81-92: indices are compared as they are given *)
Definition efz_check_declared (g : efz_crf) : res unit :=
  let! _ := ensure (forallb (fun i => (i <? Z.of_nat (efz_edge_features g))%Z) (efz_sym g ++ efz_anti g)) ValueError in
  ensure (forallb (fun i => negb (existsb (Z.eqb i) (efz_anti g))) (efz_sym g)) ValueError.

(** the loops of [joint_feature], lines 196-202: pw[i] counts from the end if i is negative *)
Fixpoint sym_rows_z (op : mat -> mat -> res mat) (k : nat) (idx : list Z) (pw : mat) : res mat :=
  match idx with
  | [] => Ok pw
  | z :: r =>
      let! i := wrap (mrows pw) z in
      let! pw' := sym_row op k pw i in
      sym_rows_z op k r pw'
  end.

(** the same model without (anti)symmetric features: its checks do not depend on them *)
Definition efz_plain (g : efz_crf) : ef_crf := EFCRF (efz_states g) (efz_features g) (efz_edge_features g) [] [].

(** [joint_feature], lines 146-206 *)
Definition efz_joint_feature (g : efz_crf) (x : ef_x) (y : ef_label) : res (list Qc) :=
  let! _ := ef_check_x (efz_plain g) x in
  let k := efz_states g in
  let! m := ef_marginals k (mrows (ex_features x)) (ex_edges x) y in
  let '(um, pw) := m in
  let! pw1 := mat_mul (mat_T (ex_edge_features x)) pw in
  let! pw2 := sym_rows_z mat_add k (efz_sym g) pw1 in
  let! pw3 := sym_rows_z mat_sub k (efz_anti g) pw2 in
  let! unaries_acc := mat_mul (mat_T um) (ex_features x) in
  Ok (ravel unaries_acc ++ ravel pw3).

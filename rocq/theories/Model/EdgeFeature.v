(** Model of pystruct/models/edge_feature_graph_crf.py (EdgeFeatureGraphCRF) on an
    initialised model. *)
From Verif Require Export Model.CRF.

Record ef_crf := EFCRF {
  ef_states : nat;
  ef_features : nat;
  ef_edge_features : nat;
  ef_sym : list nat;       (* symmetric_edge_features *)
  ef_anti : list nat }.    (* antisymmetric_edge_features *)

(** An instance x = (features, edges, edge_features). *)
Record ef_x := EFX { ex_features : mat; ex_edges : list (nat * nat); ex_edge_features : mat }.

(** A labelling: integers, or a relaxed (unary, pairwise) solution; the pairwise marginals
    stay an (n_edges, n_states^2) array here. *)
Inductive ef_label :=
| EDiscrete (y : list nat)
| ERelaxed (um : list Qc) (pw : mat).

(** [_set_size_joint_feature], edge_feature_graph_crf.py 74-79 *)
Definition ef_size (g : ef_crf) : nat :=
  (ef_states g * ef_features g + ef_edge_features g * (ef_states g * ef_states g))%nat.

(** the checks of [_set_size_joint_feature], lines 81-92, run by the constructor and by
    initialize *)
Definition ef_check_declared (g : ef_crf) : res unit :=
  let! _ := ensure (forallb (fun i => (i <? ef_edge_features g)%nat) (ef_sym g ++ ef_anti g)) ValueError in
  ensure (forallb (fun i => negb (existsb (Nat.eqb i) (ef_anti g))) (ef_sym g)) ValueError.

(** [_check_size_x], lines 110-119 *)
Definition ef_check_x (g : ef_crf) (x : ef_x) : res unit :=
  let! _ := ensure (mcols (ex_features x) =? ef_features g)%nat ValueError in
  let! _ := ensure (length (ex_edges x) =? mrows (ex_edge_features x))%nat ValueError in
  ensure (mcols (ex_edge_features x) =? ef_edge_features g)%nat ValueError.

(** body of [_get_pairwise_potentials] after the checks, lines 140-144 *)
Definition ef_pairwise_core (g : ef_crf) (edge_features : mat) (w : list Qc) : res pairwise :=
  let k := ef_states g in
  let pw := skipn (k * ef_features g) w in
  if (ef_edge_features g =? 0)%nat then Err ValueError   (* reshape(0, -1) *)
  else
    let! m := reshape pw (ef_edge_features g) (length pw / ef_edge_features g) in
    let! d := mat_mul edge_features m in
    let! _ := ensure (mrows d * mcols d =? mrows d * (k * k))%nat ValueError in
    Ok (Pw3 (mrows d) k k
         (map (fun e => tab2 k k (fun s t => mget d e (s * k + t))) (seq 0 (mrows d)))).

(** [_get_pairwise_potentials], lines 122-144 *)
Definition ef_pairwise (g : ef_crf) (x : ef_x) (w : list Qc) : res pairwise :=
  let! _ := check_size_w (ef_size g) w in
  let! _ := ef_check_x g x in
  ef_pairwise_core g (ex_edge_features x) w.

(** [_get_unary_potentials] inherited from GraphCRF, graph_crf.py 135-157, after the checks *)
Definition ef_unary_core (g : ef_crf) (features : mat) (w : list Qc) : res mat :=
  let! unary_params := reshape (firstn (ef_states g * ef_features g) w) (ef_states g) (ef_features g) in
  mat_mul features (mat_T unary_params).
Definition ef_unary (g : ef_crf) (x : ef_x) (w : list Qc) : res mat :=
  let! _ := check_size_w (ef_size g) w in
  let! _ := ef_check_x g x in
  ef_unary_core g (ex_features x) w.

(** the marginals, lines 174-193 *)
Definition ef_marginals (k n_nodes : nat) (edges : list (nat * nat)) (y : ef_label) : res (mat * mat) :=
  match y with
  | ERelaxed um pw =>
      let! um' := reshape um n_nodes k in
      Ok (um', pw)
  | EDiscrete yl =>
      let! _ := ensure (length yl =? n_nodes)%nat ValueError in
      let! um := one_hot k yl in
      let! y1 := mapM (index yl) (map snd edges) in
      let! y0 := mapM (index yl) (map fst edges) in
      let! pw := one_hot (k * k) (zipw (fun b a => (b + k * a)%nat) y1 y0) in
      Ok (um, pw)
  end.

(** a[i] = row *)
Fixpoint list_set {A} (l : list A) (i : nat) (v : A) : list A :=
  match l, i with
  | [], _ => []
  | _ :: r, O => v :: r
  | a :: r, S i' => a :: list_set r i' v
  end.

(** one pass of the loops in lines 196-202: pw[i] = (pw_ + pw_.T).ravel() / 2. (or -) *)
Definition sym_row (op : mat -> mat -> res mat) (k : nat) (pw : mat) (i : nat) : res mat :=
  let! row := index (mdat pw) i in
  let! pw_ := reshape row k k in
  let! s := op pw_ (mat_T pw_) in
  Ok (Mat (mrows pw) (mcols pw) (list_set (mdat pw) i (map (fun v => v / (1 + 1)) (ravel s)))).
Fixpoint sym_rows (op : mat -> mat -> res mat) (k : nat) (idx : list nat) (pw : mat) : res mat :=
  match idx with
  | [] => Ok pw
  | i :: r => let! pw' := sym_row op k pw i in sym_rows op k r pw'
  end.

(** body of [joint_feature] after the check, lines 169-206 *)
Definition ef_joint_feature_core (g : ef_crf) (features : mat) (edges : list (nat * nat))
           (edge_features : mat) (y : ef_label) : res (list Qc) :=
  let k := ef_states g in
  let! m := ef_marginals k (mrows features) edges y in
  let '(um, pw) := m in
  let! pw1 := mat_mul (mat_T edge_features) pw in
  let! pw2 := sym_rows mat_add k (ef_sym g) pw1 in
  let! pw3 := sym_rows mat_sub k (ef_anti g) pw2 in
  let! unaries_acc := mat_mul (mat_T um) features in
  Ok (ravel unaries_acc ++ ravel pw3).

(** [joint_feature], lines 146-206 *)
Definition ef_joint_feature (g : ef_crf) (x : ef_x) (y : ef_label) : res (list Qc) :=
  let! _ := ef_check_x g x in
  ef_joint_feature_core g (ex_features x) (ex_edges x) (ex_edge_features x) y.

(** [CRF.inference] and [CRF.loss_augmented_inference] (crf.py 62-183) for this class *)
Definition ef_inference (solve : solver) (g : ef_crf) (x : ef_x) (w : list Qc) : res (list nat) :=
  let! _ := check_size_w (ef_size g) w in
  let! U := ef_unary g x w in
  let! P := ef_pairwise g x w in
  solve U P (ex_edges x).
Definition ef_loss_augmented_inference (solve : solver) (g : ef_crf) (cw : list Qc)
           (x : ef_x) (y : list nat) (w : list Qc) : res (list nat) :=
  let! _ := check_size_w (ef_size g) w in
  let! U := ef_unary g x w in
  let! P := ef_pairwise g x w in
  let! U' := loss_augment_unaries U y cw in
  solve U' P (ex_edges x).

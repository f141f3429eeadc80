(** Model of pystruct/models/typed_crf.py (TypedCRF) and
    pystruct/models/node_type_edge_feature_graph_crf.py (NodeTypeEdgeFeatureGraphCRF).

    Labels and edge ends are [Z], since the code checks for negative ones.  Edge arrays always
    have two columns (the checks of ndim and shape[1], typed_crf.py 204-207 and
    node_type_edge_feature_graph_crf.py 190-191, cannot fail).  Not modelled: __repr__,
    the cache filled by _get_pairwise_potentials_initialize, which nothing reads, and
    l_n_features=None. *)
From Coq Require Import String ZArith.
From Verif Require Export Model.Inference Model.GraphCRF Model.Learner Model.Loss.

(** ** numpy indexing with integers that may be negative *)
(** the position denoted by index [z] in an axis of length [k] *)
Definition wrap (k : nat) (z : Z) : res nat :=
  if (0 <=? z)%Z then if (z <? Z.of_nat k)%Z then Ok (Z.to_nat z) else Err IndexError
  else if (- Z.of_nat k <=? z)%Z then Ok (Z.to_nat (z + Z.of_nat k)) else Err IndexError.
(** l[z] *)
Definition zindex {A} (l : list A) (z : Z) : res A := let! i := wrap (length l) z in index l i.
(** v - c on integer arrays *)
Definition zminus (v : list Z) (c : nat) : list Z := map (fun z => (z - Z.of_nat c)%Z) v.
(** numpy.hstack of 1-d arrays; an empty list raises *)
Definition hstack {A} (l : list (list A)) : res (list A) :=
  match l with [] => Err ValueError | _ => Ok (concat l) end.

Record ty_crf := TyCRF {
  ty_states : list nat;                (* l_n_states *)
  ty_features : list nat;              (* l_n_features *)
  ty_edge_features : list (list nat);  (* a_n_edge_features *)
  ty_weights : list (list Qc);         (* l_class_weight *)
  ty_method : string;                  (* inference_method *)
  ty_exception : bool }.               (* inference_exception *)
Definition ty_types (g : ty_crf) : nat := length (ty_states g).

(** [__init__], node_type_edge_feature_graph_crf.py 101-136 and typed_crf.py 44-103;
    np.array([]) has shape (0,), so there is at least one type.  A list that is not rectangular
    does not have the shape (n_types, n_types) either. *)
Definition ty_setup (n_types : nat) (l_n_states l_n_features : list nat) (a_n_edge_features : list (list nat))
           (method : string) (l_class_weight : option (list (list Qc))) : res ty_crf :=
  let! _ := ensure ((0 <? n_types) && (length a_n_edge_features =? n_types) &&
                    forallb (fun r => length r =? n_types) a_n_edge_features)%nat ValueError in
  let! _ := ensure (forallb (fun i => forallb (fun j =>
                      nth j (nth i a_n_edge_features []) O =? nth i (nth j a_n_edge_features []) O)
                      (seq 0 n_types)) (seq 0 n_types))%nat ValueError in
  let! _ := ensure (String.eqb method "ad3" || String.eqb method "ad3+") OtherException in
  let! _ := ensure (length l_n_states =? n_types)%nat ValueError in
  let! _ := ensure (length l_n_features =? n_types)%nat ValueError in
  let! cw := (match l_class_weight with
              | Some (c :: r) =>
                  let! _ := ensure (length (c :: r) =? n_types)%nat ValueError in
                  let! _ := ensure (forallb (fun q => length (fst q) =? snd q)%nat (combine (c :: r) l_n_states)) ValueError in
                  Ok (c :: r)
              | _ => Ok (map (fun n => repeat 1 n) l_n_states)    (* None or an empty list *)
              end) in
  Ok (TyCRF l_n_states l_n_features a_n_edge_features cw method false).

(** class_weight, typed_crf.py 83 *)
Definition ty_class_weight (g : ty_crf) : list Qc := concat (ty_weights g).
(** _l_type_startindex, typed_crf.py 90-91 *)
Definition type_starts (states : list nat) : list nat :=
  map (fun i => list_sum (firstn i states)) (seq 0 (S (length states))).
(** [_iter_type_pairs], typed_crf.py 277-281 *)
Definition type_pairs (n : nat) : list (nat * nat) := list_prod (seq 0 n) (seq 0 n).
(** a_n_edge_features[typ1, typ2], l_n_states[typ] *)
Definition ty_nef (g : ty_crf) (p : nat * nat) : nat := nth (snd p) (nth (fst p) (ty_edge_features g) []) O.
Definition ty_ns (g : ty_crf) (t : nat) : nat := nth t (ty_states g) O.
(** [_set_size_joint_feature], node_type_edge_feature_graph_crf.py 138-162 *)
Definition ty_size_unaries (g : ty_crf) : nat :=
  list_sum (map (fun p => (fst p * snd p)%nat) (combine (ty_states g) (ty_features g))).
Definition ty_size_pairwise (g : ty_crf) : nat :=
  list_sum (map (fun p => (ty_nef g p * ty_ns g (fst p) * ty_ns g (snd p))%nat) (type_pairs (ty_types g))).
Definition ty_size (g : ty_crf) : nat := (ty_size_unaries g + ty_size_pairwise g)%nat.

(** An instance ([node_features, ..], [edges, ..], [edge_features, ..]). *)
Record typed_x := TypedX {
  tx_nodes : list (option mat);
  tx_edges : list (option (list (Z * Z)));
  tx_edge_features : list (option mat) }.

(** [_get_node_features], typed_crf.py 264-268; zip stops at the shorter list *)
Definition ty_node_features (g : ty_crf) (x : typed_x) : list mat :=
  map (fun p => match fst p with None => Mat 0 (snd p) [] | Some m => m end) (combine (tx_nodes x) (ty_features g)).
(** [_get_edges], 270-272 *)
Definition ty_edges (x : typed_x) : list (list (Z * Z)) :=
  map (fun o => match o with None => [] | Some e => e end) (tx_edges x).
(** [_get_edge_features], node_type_edge_feature_graph_crf.py 213-218 *)
Definition ty_edge_feats (g : ty_crf) (x : typed_x) : list mat :=
  map (fun p => match fst p with None => Mat 0 (snd p) [] | Some m => m end)
      (combine (tx_edge_features x) (concat (ty_edge_features g))).

(** [TypedCRF._check_size_x], typed_crf.py 188-228 *)
Definition edge_in (n1 n2 : nat) (e : Z * Z) : bool :=
  ((0 <=? fst e) && (0 <=? snd e) && (fst e <? Z.of_nat n1) && (snd e <? Z.of_nat n2))%Z.
Definition ty_check_nodes (g : ty_crf) (x : typed_x) : res unit :=
  let nf := ty_node_features g x in
  let! _ := ensure (length nf =? ty_types g)%nat ValueError in
  let! _ := ensure (forallb (fun p => mcols (fst p) =? snd p)%nat (combine nf (ty_features g))) ValueError in
  let! _ := mapM (fun p =>
      match nth_error (tx_edges x) (fst p * ty_types g + snd p) with
      | None => Err IndexError
      | Some None => Ok tt
      | Some (Some es) => ensure (forallb (edge_in (mrows (nth (fst p) nf (Mat 0 0 []))) (mrows (nth (snd p) nf (Mat 0 0 [])))) es) ValueError
      end) (type_pairs (ty_types g)) in
  Ok tt.
(** [_check_size_x], node_type_edge_feature_graph_crf.py 171-211 *)
Definition ty_check_x (g : ty_crf) (x : typed_x) : res unit :=
  let n2 := (ty_types g * ty_types g)%nat in
  let! _ := ensure (length (ty_edges x) =? n2)%nat ValueError in
  let! _ := ensure (length (ty_edge_feats g x) =? n2)%nat ValueError in
  let! _ := ty_check_nodes g x in
  let! _ := ensure (forallb (fun q => length (fst q) =? mrows (snd q))%nat (combine (ty_edges x) (ty_edge_feats g x))) ValueError in
  ensure (forallb (fun p => mcols (nth (fst p * ty_types g + snd p) (ty_edge_feats g x) (Mat 0 0 [])) =? ty_nef g p)%nat
            (type_pairs (ty_types g))) ValueError.

(** [_check_size_xy], typed_crf.py 230-262: the loop over (number of nodes, first state, state
    after the last) of the types *)
Fixpoint check_types (y : list Z) (l : list (nat * nat * nat)) : res unit :=
  match l with
  | [] => Ok tt
  | (n, a, b) :: r =>
      if (n =? 0)%nat then check_types y r
      else
        let yt := firstn n y in
        let! _ := ensure (forallb (fun z => (0 <=? z)%Z) yt) ValueError in
        let! _ := ensure (forallb (fun z => (Z.of_nat a <=? z)%Z) yt) InconsistentLabel in
        let! _ := ensure (forallb (fun z => (z <? Z.of_nat b)%Z) yt) InconsistentLabel in
        check_types (skipn n y) r
  end.
Definition ty_check_xy (g : ty_crf) (x : typed_x) (y : list Z) : res unit :=
  let rows := map mrows (ty_node_features g x) in
  let! _ := ensure (length y =? list_sum rows)%nat ValueError in
  let st := type_starts (ty_states g) in
  check_types y (combine (combine rows (firstn (ty_types g) st)) (skipn 1 st)).

(** [initialize], typed_crf.py 153-163: under Python 3 the map objects are not consumed *)
Definition ty_initialize (g : ty_crf) (X : list typed_x + typed_x) (Y : option (list (list Z) + list Z)) : res unit :=
  match X with
  | inl _ => Ok tt
  | inr x =>
      let! _ := ty_check_x g x in
      match Y with
      | None => Ok tt
      | Some (inr y) => ty_check_xy g x y
      | Some (inl _) => Err AttributeError      (* a list has no shape *)
      end
  end.

(** [flattenY], typed_crf.py 120-131 *)
Definition flattenY (g : ty_crf) (lY : list (list Z)) : res (list Z) :=
  hstack (map (fun p => map (fun z => (z + Z.of_nat (fst p))%Z) (snd p)) (combine (type_starts (ty_states g)) lY)).
(** [unflattenY], 133-151; None has no shape *)
Fixpoint unflatten_loop (l : list (nat * option mat)) (y : list Z) : res (list (list Z) * nat) :=
  match l with
  | [] => Ok ([], O)
  | (_, None) :: _ => Err AttributeError
  | (a, Some nf) :: r =>
      let! q := unflatten_loop r (skipn (mrows nf) y) in
      Ok (zminus (firstn (mrows nf) y) a :: fst q, (mrows nf + snd q)%nat)
  end.
Definition unflattenY (g : ty_crf) (x : typed_x) (y : list Z) : res (list (list Z)) :=
  let! q := unflatten_loop (combine (type_starts (ty_states g)) (tx_nodes x)) y in
  let! _ := ensure (length y =? snd q)%nat ValueError in
  Ok (fst q).

(** [_get_unary_potentials], typed_crf.py 283-319 *)
Fixpoint unary_loop (l : list (mat * nat * nat)) (w : list Qc) : res (list mat * nat) :=
  match l with
  | [] => Ok ([], O)
  | (features, ns, nf) :: r =>
      let n_w := (ns * nf)%nat in
      let! b := reshape (firstn n_w w) ns nf in
      let! u := mat_mul features (mat_T b) in
      let! q := unary_loop r (skipn n_w w) in
      Ok (u :: fst q, (n_w + snd q)%nat)
  end.
Definition ty_unary (g : ty_crf) (x : typed_x) (w : list Qc) : res (list mat) :=
  let! _ := check_size_w (ty_size g) w in
  let! q := unary_loop (combine (combine (ty_node_features g x) (ty_states g)) (ty_features g)) w in
  let! _ := ensure (snd q =? ty_size_unaries g)%nat AssertionError in
  Ok (fst q).

(** [_get_pairwise_potentials], node_type_edge_feature_graph_crf.py 251-297; np.array([]) is
    written [Pw3 0 0 0 []] *)
Fixpoint pairwise_loop (g : ty_crf) (l : list ((nat * nat) * mat)) (w : list Qc) : res (list pairwise) :=
  match l with
  | [] => Ok []
  | (p, ef) :: r =>
      let k1 := ty_ns g (fst p) in
      let k2 := ty_ns g (snd p) in
      let n_w := (mcols ef * k1 * k2)%nat in
      let! pot := (if (n_w =? 0)%nat then Ok (Pw3 0 0 0 [])
                   else
                     let v := firstn n_w w in
                     let! m := reshape v (mcols ef) (length v / mcols ef) in
                     let! d := mat_mul ef m in
                     let! _ := ensure (mrows d * mcols d =? mrows d * (k1 * k2))%nat ValueError in
                     Ok (Pw3 (mrows d) k1 k2 (map (fun e => tab2 k1 k2 (fun s t => mget d e (s * k2 + t))) (seq 0 (mrows d))))) in
      let! rest := pairwise_loop g r (skipn n_w w) in
      Ok (pot :: rest)
  end.
Definition ty_pairwise (g : ty_crf) (x : typed_x) (w : list Qc) : res (list pairwise) :=
  let! _ := check_size_w (ty_size g) w in
  pairwise_loop g (combine (type_pairs (ty_types g)) (ty_edge_feats g x)) (skipn (ty_size_unaries g) w).

(** Marginals of a relaxed solution: one array per type (or pair of types), or one array. *)
Inductive margs := MList (l : list mat) | MArray (m : mat).
Inductive ty_label :=
| TDiscrete (y : list Z)
| TRelaxed (um pm : margs).

(** m[i:i+n, j:j+k] *)
Definition mat_block (m : mat) (i n j k : nat) : mat :=
  mtab (Nat.min n (mrows m - i)) (Nat.min k (mcols m - j)) (fun a b => mget m (i + a) (j + b)).
(** lines 342-349 *)
Fixpoint split_unary (m : mat) (l : list (nat * nat)) (i j : nat) : list mat :=
  match l with
  | [] => []
  | (n, k) :: r => mat_block m i n j k :: split_unary m r (i + n) (j + k)
  end.
(** a_startindex_by_typ_typ, typed_crf.py 95-102, and lines 357-367; [l] has the number of edges
    and the pair of every edge array *)
Definition pair_start (g : ty_crf) (p : nat * nat) : nat :=
  list_sum (map (fun q => (ty_ns g (fst q) * ty_ns g (snd q))%nat)
                (firstn (fst p * ty_types g + snd p) (type_pairs (ty_types g)))).
Fixpoint split_pairwise (g : ty_crf) (m : mat) (l : list (nat * (nat * nat))) (i : nat) : list mat :=
  match l with
  | [] => []
  | (n, p) :: r => mat_block m i n (pair_start g p) (ty_ns g (fst p) * ty_ns g (snd p)) :: split_pairwise g m r (i + n)
  end.

(** one-hot encoding per type, lines 370-384 *)
Fixpoint one_hots (l : list (nat * nat * nat)) (y : list Z) : res (list mat) :=
  match l with
  | [] => Ok []
  | (n, k, a) :: r =>
      let! idx := mapM (wrap k) (zminus (firstn n y) a) in
      let! _ := ensure (length idx =? n)%nat IndexError in
      let! m := one_hot k idx in
      let! ms := one_hots r (skipn n y) in
      Ok (m :: ms)
  end.
(** and per pair of types, lines 386-409 *)
Definition edge_hots (g : ty_crf) (rows : list nat) (y : list Z) (p : nat * nat) (edges : list (Z * Z)) : res mat :=
  let k1 := ty_ns g (fst p) in
  let k2 := ty_ns g (snd p) in
  let o1 := list_sum (firstn (fst p) rows) in
  let o2 := list_sum (firstn (snd p) rows) in
  let st t := nth t (type_starts (ty_states g)) O in
  if (length edges =? 0)%nat then Ok (mat_zeros 0 (k1 * k2))
  else
    let! y1 := mapM (fun e => zindex y (Z.of_nat o1 + fst e)) edges in
    let! y2 := mapM (fun e => zindex y (Z.of_nat o2 + snd e)) edges in
    let y1 := zminus y1 (st (fst p)) in
    let y2 := zminus y2 (st (snd p)) in
    let! _ := ensure (forallb (fun z => (0 <=? z)%Z) y1 && forallb (fun z => (z <=? Z.of_nat k1)%Z) y1) AssertionError in
    let! _ := ensure (forallb (fun z => (0 <=? z)%Z) y2 && forallb (fun z => (z <=? Z.of_nat k2)%Z) y2) AssertionError in
    let! idx := mapM (wrap (k1 * k2)) (zipw (fun b a => (b + Z.of_nat k2 * a)%Z) y2 y1) in
    one_hot (k1 * k2) idx.

Definition ty_marginals (g : ty_crf) (x : typed_x) (y : ty_label) : res (list mat * list mat) :=
  let rows := map mrows (ty_node_features g x) in
  let pairs := type_pairs (ty_types g) in
  match y with
  | TRelaxed um pm =>
      Ok (match um with MList l => l | MArray m => split_unary m (combine rows (ty_states g)) 0 0 end,
          match pm with MList l => l | MArray m => split_pairwise g m (combine (map (@length _) (ty_edges x)) pairs) 0 end)
  | TDiscrete yl =>
      let! _ := ty_check_xy g x yl in
      let! ums := one_hots (combine (combine rows (ty_states g)) (type_starts (ty_states g))) yl in
      (* x[0] itself gives the node offsets *)
      let all := map (fun o => match o with None => O | Some m => mrows m end) (tx_nodes x) in
      let! pms := mapM (fun q => edge_hots g all yl (fst q) (snd q)) (combine pairs (ty_edges x)) in
      Ok (ums, pms)
  end.

(** [joint_feature], lines 299-426 *)
Definition ty_joint_feature (g : ty_crf) (x : typed_x) (y : ty_label) : res (list Qc) :=
  let! _ := ty_check_x g x in
  let! m := ty_marginals g x y in
  let '(ums, pms) := m in
  let! us := mapM (fun q => let! a := mat_mul (mat_T (fst q)) (snd q) in Ok (ravel a)) (combine ums (ty_node_features g x)) in
  let! u := hstack us in
  let! ps := mapM (fun q => let! a := mat_mul (mat_T (fst q)) (snd q) in Ok (ravel a)) (combine (ty_edge_feats g x) pms) in
  let! p := hstack ps in
  Ok (u ++ p)%list.

(** [loss_augment_unaries], lines 428-440.  The compiled function reads outside its arrays for a
    label that is negative or too large (wraparound=False, boundscheck=False); [c_label] sends
    negative labels to a number that is outside of both arrays. *)
Definition c_label (u : mat) (cw : list Qc) (z : Z) : nat :=
  if (z <? 0)%Z then Nat.max (mcols u) (length cw) else Z.to_nat z.
Fixpoint laug_loop (l : list (mat * list Qc * nat)) (y : list Z) : res (list mat) :=
  match l with
  | [] => Ok []
  | (u, cw, a) :: r =>
      let! u' := loss_augment_unaries u (map (c_label u cw) (zminus (firstn (mrows u) y) a)) cw in
      let! us := laug_loop r (skipn (mrows u) y) in
      Ok (u' :: us)
  end.
Definition ty_loss_augment (g : ty_crf) (us : list mat) (y : list Z) : res (list mat) :=
  laug_loop (combine (combine us (ty_weights g)) (type_starts (ty_states g))) y.

(** [continuous_loss], typed_crf.py 321-342.  class_weight[y] * result broadcasts a result with
    one entry. *)
Fixpoint closs_loop (l : list mat) (y : list Z) (cum : nat) : res (list Qc) :=
  match l with
  | [] => Ok []
  | m :: r =>
      let yt := zminus (firstn (mrows m) y) cum in
      let! v := mapM (fun q => let! s := wrap (mcols m) (snd q) in Ok (1 - mget m (fst q) s)) (combine (seq 0 (length yt)) yt) in
      let! vs := closs_loop r (skipn (mrows m) y) (cum + mcols m) in
      Ok (v ++ vs)%list
  end.
Definition broadcast_dot (a b : list Qc) : res Qc :=
  if (length a =? length b)%nat then Ok (lsum (zipw Qcmult a b))
  else match a, b with
       | [u], _ => Ok (u * lsum b)
       | _, [v] => Ok (lsum a * v)
       | _, _ => Err ValueError
       end.
Definition ty_continuous_loss (g : ty_crf) (y : list Z) (l : list mat) : res Qc :=
  let! _ := ensure (negb (length l =? 0)%nat) ValueError in
  let! v := closs_loop l y 0 in
  let! cy := mapM (zindex (ty_class_weight g)) y in
  broadcast_dot cy v.

(** CRF.inference and CRF.loss_augmented_inference (crf.py 62-183).  inference_exception is not
    passed on.  Negative edge ends are outside of the solver's arrays. *)
Definition nat_edges (es : list (list (Z * Z))) : res (list (list (nat * nat))) :=
  mapM (mapM (fun e => let! _ := ensure ((0 <=? fst e) && (0 <=? snd e))%Z OutOfBounds in Ok (Z.to_nat (fst e), Z.to_nat (snd e)))) es.
Definition ty_dispatch (b : backends) (g : ty_crf) (us : list mat) (ps : list pairwise) (x : typed_x) (kw : kwargs) : res result :=
  let! es := nat_edges (ty_edges x) in
  let! r := inference_dispatch b (Multi us ps es) (Name (ty_method g)) false kw in
  Ok (fst r).
Definition ty_inference (b : backends) (g : ty_crf) (x : typed_x) (w : list Qc) (relaxed : bool)
           (constraints : list logic_constraint) : res result :=
  let! _ := check_size_w (ty_size g) w in
  let! us := ty_unary g x w in
  let! ps := ty_pairwise g x w in
  ty_dispatch b g us ps x
    (("relaxed"%string, VBool relaxed) ::
     match constraints with [] => [] | _ => [("constraints"%string, VConstraints constraints)] end).
Definition ty_loss_augmented_inference (b : backends) (g : ty_crf) (x : typed_x) (y : list Z) (w : list Qc) (relaxed : bool) : res result :=
  let! _ := check_size_w (ty_size g) w in
  let! us := ty_unary g x w in
  let! ps := ty_pairwise g x w in
  let! us' := ty_loss_augment g us y in
  ty_dispatch b g us' ps x [("relaxed"%string, VBool relaxed)].
(** [setInferenceException], typed_crf.py 165-170 *)
Definition set_inference_exception (v : bool) (g : ty_crf) : ty_crf :=
  TyCRF (ty_states g) (ty_features g) (ty_edge_features g) (ty_weights g) (ty_method g) v.

(** NodeTypeEdgeFeatureGraphCRF as seen by the learners, without relaxation *)
Definition labels_of (r : result) : res (list nat) :=
  match r with RLabels y => Ok y | _ => Err TypeError end.
Definition ty_smodel (b : backends) (g : ty_crf) : smodel typed_x (list nat) :=
  SModel (ty_size g) false (fun x y _ => ty_joint_feature g x (TDiscrete (map Z.of_nat y)))
    (fun x w => let! r := ty_inference b g x w false [] in labels_of r)
    (fun x y w => let! r := ty_loss_augmented_inference b g x (map Z.of_nat y) w false in labels_of r)
    (fun _ => false) (loss (Some (ty_class_weight g))) (fun _ _ => Err AttributeError).

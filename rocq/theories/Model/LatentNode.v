(** Model of pystruct/models/latent_node_crf.py (LatentNodeCRF, EdgeFeatureLatentNodeCRF,
    kmeans_init) on an initialised model.

    Simplified: kmeans_init with a label array of length 1 for several visible nodes (numpy would
    repeat it) or several labels for one visible node is IndexError here. *)
From Verif Require Export Model.LatentLearner Model.EdgeFeature.

(** attributes n_labels, n_hidden_states, n_features, latent_node_features, class_weight *)
Record ln_crf := LNCRF { ln_labels : nat; ln_hidden : nat; ln_features : nat; ln_node_features : bool; ln_cw : list Qc }.
(** an instance x = (features, edges, n_hidden) *)
Record ln_x := LNX { lx_features : mat; lx_edges : list (nat * nat); lx_hidden : nat }.
(** integers, or a relaxed (unary, pairwise) solution, the pairwise part raveled *)
Inductive ln_label := LNDiscrete (h : list nat) | LNRelaxed (um : mat) (pw : list Qc).

(** attributes n_states, n_input_states; [_set_size_joint_feature], lines 122-132 *)
Definition ln_states (g : ln_crf) : nat := (ln_hidden g + ln_labels g)%nat.
Definition ln_input_states (g : ln_crf) : nat := if ln_node_features g then ln_states g else ln_labels g.
Definition ln_size (g : ln_crf) : nat := (ln_input_states g * ln_features g + ln_states g * (ln_states g + 1) / 2)%nat.

(** number of rows of the unary potentials *)
Definition ln_nodes (g : ln_crf) (x : ln_x) : nat :=
  if ln_node_features g then mrows (lx_features x) else (mrows (lx_features x) + lx_hidden x)%nat.
(** n_visible as used in slices [:n_visible] of an array with features.shape[0] rows (a negative
    bound counts from the end), lines 194-200 *)
Definition ln_visible (g : ln_crf) (x : ln_x) : nat :=
  let r := mrows (lx_features x) in
  if ln_node_features g
  then if (lx_hidden x <=? r)%nat then (r - lx_hidden x)%nat else (r - (lx_hidden x - r))%nat
  else r.

(** [GraphCRF._check_size_x] *)
Definition ln_check_x (g : ln_crf) (x : ln_x) : res unit := ensure (mcols (lx_features x) =? ln_features g)%nat ValueError.
(** [_get_unary_potentials] after the checks, lines 190-211 (490-511 in the other class) *)
Definition ln_unary_core (g : ln_crf) (x : ln_x) (w : list Qc) : res mat :=
  let I := ln_input_states g in
  let! params := reshape (firstn (I * ln_features g) w) I (ln_features g) in
  let! observed := mat_mul (lx_features x) (mat_T params) in
  let n_visible := ln_visible g x in
  let n := ln_nodes g x in
  let u := if ln_node_features g then observed
           else mtab n (ln_states g) (fun i s => if ((i <? n_visible) && (s <? ln_labels g))%nat then mget observed i s else 0) in
  let! mx := np_max (ravel u) in
  let max_entry := Qcmax mx 1 in
  Ok (mtab n (ln_states g) (fun i s =>
        if (((i <? n_visible) && (ln_labels g <=? s)) || ((n_visible <=? i) && (s <? ln_labels g)))%nat
        then - ofN 100 * max_entry else mget u i s)).
(** [_get_pairwise_potentials], lines 152-170, and [_get_unary_potentials], lines 172-211 *)
Definition ln_pairwise (g : ln_crf) (x : ln_x) (w : list Qc) : res mat :=
  let! _ := check_size_w (ln_size g) w in
  let! _ := ln_check_x g x in
  expand_sym (skipn (ln_input_states g * ln_features g) w).
Definition ln_unary (g : ln_crf) (x : ln_x) (w : list Qc) : res mat :=
  let! _ := check_size_w (ln_size g) w in
  let! _ := ln_check_x g x in
  ln_unary_core g x w.

(** [label_from_latent], lines 246-247 *)
Definition ln_label_from_latent (g : ln_crf) (h : list nat) : list nat := filter (fun s => s <? ln_labels g)%nat h.

(** one turn of the loop in [loss_augmented_inference], lines 221-226 *)
Definition ln_augment_state (g : ln_crf) (h : list nat) (l : nat) (u : mat) : res mat :=
  let y := ln_label_from_latent g h in
  let! cy := class_weights (ln_cw g) y in
  let! _ := ensure (forallb (fun i => (nth i y O =? l) || (i <? mrows u))%nat (seq 0 (length y)) && (l <? mcols u)%nat) IndexError in
  Ok (mtab (mrows u) (mcols u) (fun i s =>
        if ((s =? l) && (i <? length y) && negb (nth i y O =? l))%nat then mget u i s + get1 cy i else mget u i s)).
Fixpoint ln_augment (g : ln_crf) (h : list nat) (ls : list nat) (u : mat) : res mat :=
  match ls with
  | [] => Ok u
  | l :: r => let! u := ln_augment_state g h l u in ln_augment g h r u
  end.
(** [CRF.inference], crf.py 120-183; [loss_augmented_inference], lines 213-230 *)
Definition ln_inference (solve : solver) (g : ln_crf) (x : ln_x) (w : list Qc) : res (list nat) :=
  let! _ := check_size_w (ln_size g) w in
  let! u := ln_unary g x w in
  let! P := ln_pairwise g x w in
  solve u (Pw2 P) (lx_edges x).
Definition ln_loss_augmented_inference (solve : solver) (g : ln_crf) (x : ln_x) (h : list nat) (w : list Qc) : res (list nat) :=
  let! _ := check_size_w (ln_size g) w in
  let! u := ln_unary g x w in
  let! P := ln_pairwise g x w in
  let! u := ln_augment g h (seq 0 (ln_states g)) u in
  solve u (Pw2 P) (lx_edges x).
(** lines 234-236: clamp the observed nodes *)
Definition ln_clamp (y : list nat) (u : mat) : res mat :=
  let! mx := np_max (ravel u) in
  let max_entry := Qcmax mx 1 in
  let! _ := ensure ((length y <=? mrows u) && forallb (fun s => s <? mcols u) y)%nat IndexError in
  Ok (mtab (mrows u) (mcols u) (fun i s => if ((i <? length y) && (s =? nth i y O))%nat then ofN 100 * max_entry else mget u i s)).
(** (h[:len(y)] != y).any() *)
Definition ln_differs (y h : list nat) : res bool :=
  let! d := mismatch (firstn (length y) h) y in
  Ok (negb (forallb (fun q => Qceqb q 0) d)).
(** [latent], lines 232-244 *)
Definition ln_latent (solve : solver) (g : ln_crf) (x : ln_x) (y : list nat) (w : list Qc) : res (list nat) :=
  let! u := ln_unary g x w in
  let! u := ln_clamp y u in
  let! P := ln_pairwise g x w in
  let! h := solve u (Pw2 P) (lx_edges x) in
  let! bad := ln_differs y h in
  if (bad : bool) then Err ValueError else Ok h.

(** [loss], [base_loss], [continuous_loss], lines 249-265; [max_loss], lines 325-329 *)
Definition ln_loss (g : ln_crf) (h h_hat : list nat) : res Qc :=
  loss (Some (ln_cw g)) (ln_label_from_latent g h) (ln_label_from_latent g h_hat).
Definition ln_base_loss (g : ln_crf) (y y_hat : list nat) : res Qc := loss (Some (ln_cw g)) y y_hat.
Definition ln_continuous_loss (g : ln_crf) (h : list nat) (h_hat : mat) : res Qc :=
  let y_org := ln_label_from_latent g h in
  continuous_loss (Some (ln_cw g)) y_org
    (mtab (Nat.min (length y_org) (mrows h_hat)) (Nat.min (ln_labels g) (mcols h_hat)) (mget h_hat)).
Definition ln_max_loss (g : ln_crf) (h : list nat) : res Qc := max_loss (Some (ln_cw g)) (ln_label_from_latent g h).

(** um[:n_visible, :n_input_states].T dot features, lines 311-313 *)
Definition ln_unaries_acc (g : ln_crf) (um features : mat) : res mat :=
  mat_mul (mat_T (mtab (Nat.min (mrows um) (mrows features)) (Nat.min (mcols um) (ln_input_states g)) (mget um))) features.
(** [joint_feature], lines 267-317 *)
Definition ln_joint_feature (g : ln_crf) (x : ln_x) (h : ln_label) : res (list Qc) :=
  let! _ := ln_check_x g x in
  let S := ln_states g in
  let! m := (match h with
             | LNRelaxed um pw => let! pw := sum_pairwise S pw in Ok (um, pw)
             | LNDiscrete h =>
                 let! um := one_hot S h in
                 let! u0 := take_rows um (map fst (lx_edges x)) in
                 let! u1 := take_rows um (map snd (lx_edges x)) in
                 let! pw := mat_mul (mat_T u0) u1 in
                 Ok (um, pw)
             end) in
  let! acc := ln_unaries_acc g (fst m) (lx_features x) in
  let! pwv := compress_sym (snd m) true in
  Ok (ravel acc ++ pwv).

(** ** [kmeans_init], lines 21-65; a KMeans object after fit, seen through predict *)
Definition ln_clusterer := nat -> list (list Qc) -> res (list Qc -> nat).
(** lines 26-52: shares of the labels among the neighbours of the nodes graph[-n_hidden:] *)
Definition hidden_features (n_labels : nat) (node_features : bool) (x : ln_x) (y : list nat) : res (list (list Qc)) :=
  let r := mrows (lx_features x) in let hid := lx_hidden x in let e := lx_edges x in
  let! _ := ensure (negb node_features || (hid <=? r)%nat) ValueError in   (* np.zeros of negative size *)
  let n_visible := if node_features then (r - hid)%nat else r in
  let! _ := ensure (negb (length e =? 0)%nat) ValueError in                  (* np.max of nothing *)
  let! _ := ensure (fold_right Nat.max O (map (fun p => Nat.max (fst p) (snd p)) e) + 1 =? hid + n_visible)%nat ValueError in
  let! _ := ensure (length y =? n_visible)%nat IndexError in
  let! oh := one_hot n_labels y in
  let! _ := ensure (negb (n_visible =? 0)%nat) ValueError in                 (* reshape(0, -1) *)
  (* graph[-0:] is all of graph *)
  let first := if (hid =? 0)%nat then O else n_visible in
  let rows := if (hid =? 0)%nat then n_visible else hid in
  let neighbors i := tab1 n_labels (fun l => sumn n_visible (fun j =>
        (count_edges e (first + i) j + count_edges e j (first + i)) * mget oh j l)) in
  Ok (map (fun i => vscale (/ Qcmax (lsum (neighbors i)) 1) (neighbors i)) (seq 0 rows)).
Definition ln_kmeans_init (cluster : ln_clusterer) (n_labels n_hidden_states : nat) (node_features : bool)
           (S : list (ln_x * list nat)) : res (list (list nat)) :=
  let! F := mapM (fun s => hidden_features n_labels node_features (fst s) (snd s)) S in
  let! _ := ensure (negb (length S =? 0)%nat) ValueError in   (* np.vstack of nothing *)
  let! km := cluster n_hidden_states (concat F) in
  Ok (map (fun s => snd (fst s) ++ map (fun f => (km f + n_labels)%nat) (snd s)) (combine S F)).
Definition ln_init_latent (cluster : ln_clusterer) (g : ln_crf) (S : list (ln_x * list nat)) : res (list (list nat)) :=
  ln_kmeans_init cluster (ln_labels g) (ln_hidden g) (ln_node_features g) S.

(** ** EdgeFeatureLatentNodeCRF, lines 332-642: the LatentNodeCRF attributes, n_edge_features,
    symmetric_edge_features, antisymmetric_edge_features *)
Record el_crf := ELCRF { el_node : ln_crf; el_edge_features : nat; el_sym : list nat; el_anti : list nat }.
(** x = (features, edges, edge_features, n_hidden) *)
Record el_x := ELX { xl_node : ln_x; xl_edge_features : mat }.
Inductive el_label := ELDiscrete (h : list nat) | ELRelaxed (um pw : mat).
(** lines 402-403, 433-435; lines 411-415 *)
Definition el_size (g : el_crf) : nat :=
  let b := el_node g in (ln_input_states b * ln_features b + el_edge_features g * (ln_states b * ln_states b))%nat.
Definition el_check_declared (g : el_crf) : res unit :=
  ensure (forallb (fun i => negb (existsb (Nat.eqb i) (el_anti g))) (el_sym g)) ValueError.
(** [_check_size_x], lines 437-446 *)
Definition el_check_x (g : el_crf) (x : el_x) : res unit :=
  let! _ := ln_check_x (el_node g) (xl_node x) in
  let! _ := ensure (length (lx_edges (xl_node x)) =? mrows (xl_edge_features x))%nat ValueError in
  ensure (mcols (xl_edge_features x) =? el_edge_features g)%nat ValueError.
(** [_get_pairwise_potentials], lines 448-470 *)
Definition el_pairwise (g : el_crf) (x : el_x) (w : list Qc) : res pairwise :=
  let b := el_node g in let k := ln_states b in
  let! _ := check_size_w (el_size g) w in
  let! _ := el_check_x g x in
  let pw := skipn (ln_input_states b * ln_features b) w in
  if (el_edge_features g =? 0)%nat then Err ValueError   (* reshape(0, -1) *)
  else
    let! m := reshape pw (el_edge_features g) (length pw / el_edge_features g) in
    let! d := mat_mul (xl_edge_features x) m in
    let! _ := ensure (mrows d * mcols d =? mrows d * (k * k))%nat ValueError in
    Ok (Pw3 (mrows d) k k (map (fun e => tab2 k k (fun s t => mget d e (s * k + t))) (seq 0 (mrows d)))).
Definition el_unary (g : el_crf) (x : el_x) (w : list Qc) : res mat :=
  let! _ := check_size_w (el_size g) w in
  let! _ := el_check_x g x in
  ln_unary_core (el_node g) (xl_node x) w.
Definition el_inference (solve : solver) (g : el_crf) (x : el_x) (w : list Qc) : res (list nat) :=
  let! _ := check_size_w (el_size g) w in
  let! u := el_unary g x w in
  let! P := el_pairwise g x w in
  solve u P (lx_edges (xl_node x)).
(** lines 513-530 *)
Definition el_loss_augmented_inference (solve : solver) (g : el_crf) (x : el_x) (h : list nat) (w : list Qc) : res (list nat) :=
  let! _ := check_size_w (el_size g) w in
  let! u := el_unary g x w in
  let! P := el_pairwise g x w in
  let! u := ln_augment (el_node g) h (seq 0 (ln_states (el_node g))) u in
  solve u P (lx_edges (xl_node x)).
(** [latent], lines 532-544: an inconsistent answer is overwritten *)
Definition el_latent (solve : solver) (g : el_crf) (x : el_x) (y : list nat) (w : list Qc) : res (list nat) :=
  let! u := el_unary g x w in
  let! u := ln_clamp y u in
  let! P := el_pairwise g x w in
  let! h := solve u P (lx_edges (xl_node x)) in
  let! bad := ln_differs y h in
  Ok (if (bad : bool) then y ++ skipn (length y) h else h).
(** [joint_feature], lines 567-628 *)
Definition el_joint_feature (g : el_crf) (x : el_x) (h : el_label) : res (list Qc) :=
  let! _ := el_check_x g x in
  let b := el_node g in let S := ln_states b in
  let e := lx_edges (xl_node x) in
  let! m := (match h with
             | ELRelaxed um pw => Ok (um, pw)
             | ELDiscrete h =>
                 let! um := one_hot S h in
                 let! _ := ensure (forallb (fun p => (fst p <? length h) && (snd p <? length h))%nat e) IndexError in
                 let! _ := ensure (negb (length e =? 0)%nat) ValueError in   (* np.vstack([]) *)
                 Ok (um, mtab (length e) (S * S) (fun i q =>
                       mget um (fst (nth i e (O, O))) (q / S) * mget um (snd (nth i e (O, O))) (q mod S)))
             end) in
  let! pw := mat_mul (mat_T (xl_edge_features x)) (snd m) in
  let! pw := sym_rows mat_add S (el_sym g) pw in
  let! pw := sym_rows mat_sub S (el_anti g) pw in
  let! acc := ln_unaries_acc b (fst m) (lx_features (xl_node x)) in
  Ok (ravel acc ++ ravel pw).
Definition el_init_latent (cluster : ln_clusterer) (g : el_crf) (S : list (el_x * list nat)) : res (list (list nat)) :=
  ln_init_latent cluster (el_node g) (map (fun p => (xl_node (fst p), snd p)) S).

(** ** what the learners see, with a solver returning integer labellings *)
Definition ln_smodel (solve : solver) (g : ln_crf) : smodel ln_x (list nat) :=
  SModel (ln_size g) false (fun x h _ => ln_joint_feature g x (LNDiscrete h))
    (ln_inference solve g) (ln_loss_augmented_inference solve g) (fun _ => false) (ln_loss g) (fun _ _ => Err AttributeError).
Definition ln_lmodel (solve : solver) (cluster : ln_clusterer) (g : ln_crf) : lmodel ln_x (list nat) :=
  LModel (ln_smodel solve g) (ln_latent solve g) (fun h => Ok (ln_label_from_latent g h)) (ln_base_loss g)
    (ln_max_loss g) (ln_init_latent cluster g).
Definition el_smodel (solve : solver) (g : el_crf) : smodel el_x (list nat) :=
  SModel (el_size g) false (fun x h _ => el_joint_feature g x (ELDiscrete h))
    (el_inference solve g) (el_loss_augmented_inference solve g) (fun _ => false) (ln_loss (el_node g)) (fun _ _ => Err AttributeError).
Definition el_lmodel (solve : solver) (cluster : ln_clusterer) (g : el_crf) : lmodel el_x (list nat) :=
  LModel (el_smodel solve g) (el_latent solve g) (fun h => Ok (ln_label_from_latent (el_node g) h)) (ln_base_loss (el_node g))
    (ln_max_loss (el_node g)) (el_init_latent cluster g).

(** Model of pystruct/models/latent_graph_crf.py (LatentGraphCRF and kmeans_init).

    Not modelled: relaxed results of inference other than through continuous_loss; labels are
    1-d arrays of natural numbers.  class_weight is ones(n_labels), as set by initialize (the
    constructor takes none). *)
From Verif Require Export Model.CRF.

(** n_states_per_label as given: an integer or a list *)
Inductive per_label := SameStates (k : nat) | StatesList (l : list nat).

(** attributes n_labels, n_features, n_states_per_label (an array), _states_map *)
Record lg_crf := LGCRF { lg_labels : nat; lg_features : nat; lg_counts : list nat; lg_map : list nat }.

(** m[a:b] = v *)
Definition assign_slice (m : list nat) (a b v : nat) : list nat :=
  map (fun p => if ((a <=? fst p) && (fst p <? b))%nat then v else snd p) (combine (seq 0 (length m)) m).
(** [_set_size_joint_feature], lines 102-125, n_labels and n_features being known *)
Definition lg_setup (n_labels n_features : nat) (p : per_label) : res lg_crf :=
  let! counts := (match p with
                  | SameStates k => Ok (repeat k n_labels)
                  | StatesList l => let! _ := ensure (length l =? n_labels)%nat ValueError in Ok l
                  end) in
  let n_states := list_sum counts in
  let ranges := np_cumsum counts in
  let states_map := fold_left (fun m l => assign_slice m (nth (l - 1) ranges O) (nth l ranges O) l)
                              (seq 1 (n_labels - 1)) (repeat O n_states) in
  Ok (LGCRF n_labels n_features counts states_map).
(** attribute n_states; the GraphCRF underneath *)
Definition lg_states (g : lg_crf) : nat := list_sum (lg_counts g).
Definition lg_graph (g : lg_crf) : graph_crf := GraphCRF (lg_states g) (lg_features g) false.

(** [label_from_latent], lines 144-145 *)
Definition label_from_latent (g : lg_crf) (h : list nat) : res (list nat) := mapM (index (lg_map g)) h.

(** one turn of the loop in [loss_augmented_inference], lines 162-166 *)
Definition lg_augment_state (g : lg_crf) (h : list nat) (l : nat) (u : mat) : res mat :=
  let! labels := label_from_latent g h in
  let! ll := index (lg_map g) l in
  let! _ := ensure ((length labels =? mrows u) && (l <? mcols u))%nat IndexError in
  Ok (mtab (mrows u) (mcols u)
        (fun i s => if ((s =? l) && negb (nth i labels O =? ll))%nat then mget u i s + 1 else mget u i s)).
Fixpoint lg_augment (g : lg_crf) (h : list nat) (ls : list nat) (u : mat) : res mat :=
  match ls with
  | [] => Ok u
  | l :: r => let! u := lg_augment_state g h l u in lg_augment g h r u
  end.
(** [loss_augmented_inference], lines 154-170 (relaxed=False) *)
Definition lg_loss_augmented_inference (solve : solver) (g : lg_crf) (x : graph_x) (h : list nat) (w : list Qc) : res (list nat) :=
  let! p := g_potentials (lg_graph g) x w in
  let! u := lg_augment g h (seq 0 (lg_states g)) (fst p) in
  solve u (Pw2 (snd p)) (gx_edges x).
(** [latent], lines 172-186 *)
Definition lg_latent (solve : solver) (g : lg_crf) (x : graph_x) (y : list nat) (w : list Qc) : res (list nat) :=
  let! u := g_unary (lg_graph g) x w in
  let! mx := np_max (ravel u) in
  let max_entry := Qcmax mx 1 in
  let! _ := ensure ((length y =? mrows u) && (length (lg_map g) =? mcols u))%nat IndexError in
  let u := mtab (mrows u) (mcols u)
             (fun i s => if (nth s (lg_map g) O =? nth i y O)%nat then mget u i s else - ofN 100 * max_entry) in
  let! P := g_pairwise (lg_graph g) x w in
  let! h := solve u (Pw2 P) (gx_edges x) in
  let! labels := label_from_latent g h in
  let! d := mismatch labels y in
  if forallb (fun q => Qceqb q 0) d then Ok h
  else mapM (index (O :: np_cumsum (lg_counts g))) y.

(** class_weight *)
Definition lg_cw (g : lg_crf) : option (list Qc) := Some (repeat 1 (lg_labels g)).
(** [loss] on integer labellings, lines 188-192 *)
Definition lg_loss (g : lg_crf) (h h_hat : list nat) : res Qc :=
  let! y := label_from_latent g h in
  let! y_hat := label_from_latent g h_hat in
  loss (lg_cw g) y y_hat.
(** [continuous_loss], lines 194-201 *)
Definition lg_continuous_loss (g : lg_crf) (h : list nat) (h_hat : mat) : res Qc :=
  let! _ := ensure ((lg_states g <=? mcols h_hat) && forallb (fun l => l <? lg_labels g) (lg_map g))%nat IndexError in
  let y_hat_org := mtab (mrows h_hat) (lg_labels g)
    (fun i l => sumn (lg_states g) (fun s => if (nth s (lg_map g) O =? l)%nat then mget h_hat i s else 0)) in
  let! y_org := label_from_latent g h in
  continuous_loss (lg_cw g) y_org y_hat_org.
(** [base_loss], lines 203-206, on integer labellings; a relaxed y_hat is handed over as a tuple,
    which continuous_loss cannot index *)
Definition lg_base_loss (g : lg_crf) (y y_hat : list nat) : res Qc := loss (lg_cw g) y y_hat.
Definition lg_base_loss_relaxed : res Qc := Err TypeError.

(** ** [kmeans_init], lines 12-58 *)
(** number of edges from i to j *)
Definition count_edges (e : list (nat * nat)) (i j : nat) : Qc :=
  ofN (length (filter (fun p => (fst p =? i) && (snd p =? j))%nat e)).
(** lines 18-34: neighbours of each label over all directions, normalised; lines 37-38 *)
Definition neighbor_features (n_labels : nat) (symmetric : bool) (x : mat) (y : list nat) (edges : list (list (nat * nat)))
  : res (list (list Qc)) :=
  let n := mrows x in
  let! _ := ensure (length y =? n)%nat IndexError in
  let! oh := one_hot n_labels y in
  let! _ := ensure (forallb (forallb (fun p => (fst p <? n) && (snd p <? n)))%nat edges) ValueError in
  let directions := if symmetric
                    then map (fun e i j => count_edges e i j + count_edges e j i) edges
                    else flat_map (fun e => [(fun i j => count_edges e i j); (fun i j => count_edges e j i)]) edges in
  let! _ := ensure (negb (length directions =? 0)%nat) ValueError in
  let neighbors i := flat_map (fun (g : nat -> nat -> Qc) => tab1 n_labels (fun l => sumn n (fun j => g i j * mget oh j l))) directions in
  Ok (map (fun i => nth i (mdat x) [] ++ vscale (/ Qcmax (lsum (neighbors i)) 1) (neighbors i)) (seq 0 n)).
(** a KMeans object after fit on some rows, seen through predict; fit may raise *)
Definition clusterer := nat -> nat -> list (list Qc) -> res (list Qc -> nat).
(** rows of [f] whose label is [l] *)
Definition rows_of {A} (l : nat) (f : list A) (y : list nat) : list A :=
  map fst (filter (fun p => (snd p =? l)%nat) (combine f y)).
(** lines 45-57, one label: [F] has the features, labels and latent states of each sample *)
Definition kmeans_label (cluster : clusterer) (counts : list nat) (label : nat)
           (F : list (list (list Qc) * list nat * list nat)) : res (list (list (list Qc) * list nat * list nat)) :=
  let! k := index counts label in
  let! km := cluster label k (concat (map (fun s => rows_of label (fst (fst s)) (snd (fst s))) F)) in
  let! off := index (O :: np_cumsum counts) label in
  Ok (map (fun s => let '(f, y, h) := s in
                    (f, y, map (fun p => let '(r, l, v) := p in if (l =? label)%nat then (km r + off)%nat else v)
                               (combine (combine f y) h))) F).
Fixpoint kmeans_loop (cluster : clusterer) (counts : list nat) (labels : list nat)
         (F : list (list (list Qc) * list nat * list nat)) : res (list (list (list Qc) * list nat * list nat)) :=
  match labels with
  | [] => Ok F
  | l :: r => let! F := kmeans_label cluster counts l F in kmeans_loop cluster counts r F
  end.
(** all samples: features, labels, lists of edges *)
Definition kmeans_init (cluster : clusterer) (n_labels : nat) (counts : list nat) (symmetric : bool)
           (S : list (mat * list nat * list (list (nat * nat)))) : res (list (list nat)) :=
  let! F := mapM (fun s => let '(x, y, edges) := s in
                           let! f := neighbor_features n_labels symmetric x y edges in
                           Ok (f, y, repeat O (length y))) S in
  (* np.vstack: at least one sample, equal widths (1-d rows; an empty block has a width too) *)
  let width s := let '(x, y, edges) := s in (mcols x + (if symmetric then 1 else 2) * n_labels * length edges)%nat in
  let! _ := ensure (match map width S with [] => false | a :: r => forallb (Nat.eqb a) r end) ValueError in
  let labels := filter (fun l => existsb (Nat.eqb l) (concat (map (fun s => snd (fst s)) F))) (seq 0 n_labels) in
  let! F := kmeans_loop cluster counts labels F in
  Ok (map snd F).
(** [init_latent], lines 147-152 *)
Definition lg_init_latent (cluster : clusterer) (g : lg_crf) (S : list (graph_x * list nat)) : res (list (list nat)) :=
  kmeans_init cluster (lg_labels g) (lg_counts g) true (map (fun p => (gx_features (fst p), snd p, [gx_edges (fst p)])) S).

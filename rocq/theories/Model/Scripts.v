(** Model of the computations in pystruct/datasets/dataset_loaders.py, pystruct/utils/plotting.py and
    in the scripts examples/plot_letters.py, plot_latent_node.py, image_segmentation.py,
    plot_directional_grid.py.  Reading files and drawing are left out: the data of a file is an
    argument, a picture is the array handed to matplotlib. *)
From Verif Require Export Model.Grid Model.LatentNode Model.ChainCRF.

(** ** load_letters, dataset_loaders.py 22-42 *)
(** np.hstack of 2-d arrays: the numbers of rows must agree; np.hstack([]) raises *)
Definition hstack2 (l : list mat) : res mat :=
  match l with
  | [] => Err ValueError
  | a :: _ =>
      if forallb (fun b => (mrows b =? mrows a)%nat) l
      then Ok (Mat (mrows a) (list_sum (map mcols l)) (map (fun i => concat (map (fun b => nth i (mdat b) []) l)) (seq 0 (mrows a))))
      else Err ValueError
  end.
(** one element of data['images'], lines 40-41; a letter is a row of 128 pixels *)
Definition word_image (word : list (list Qc)) : res mat :=
  let! letters := mapM (fun l => reshape l 16 8) word in hstack2 letters.
Definition letter_images (data : list (list (list Qc))) : res (list mat) := mapM word_image data.

(** ** plot_grid, plotting.py 34-35: np.arange(1, n) - .5 *)
Definition grid_ticks (n : nat) : list Qc := map (fun i => ofN i - / (1 + 1)) (seq 1 (n - 1)).

(** ** plot_letters.py *)
(** X[mask] for a list of values as an object array; a mask of another length raises *)
Definition take_mask {A} (mask : list bool) (l : list A) : res (list A) :=
  if (length mask =? length l)%nat then Ok (map snd (filter fst (combine mask l))) else Err IndexError.
(** lines 47-48: X[folds == 1], X[folds != 1] *)
Definition fold_split {A} (folds : list nat) (l : list A) : res (list A * list A) :=
  let! train := take_mask (map (fun f => f =? 1)%nat folds) l in
  let! test := take_mask (map (fun f => negb (f =? 1)%nat) folds) l in
  Ok (train, test).
(** line 86: ssvm.w[26 * 8 * 16:].reshape(26, 26), for [k] letters and [f] pixels *)
Definition transition_parameters (k f : nat) (w : list Qc) : res mat := reshape (skipn (k * f) w) k k.

(** ** plot_directional_grid.py line 50: clf.w.reshape(3, 3, 3), for [k] states; [w[p]] is plot [p] *)
Definition weight_plot (k : nat) (w : list Qc) (p : nat) : res mat :=
  if (length w =? k * (k * k))%nat then reshape (firstn (k * k) (skipn (p * (k * k)) w)) k k else Err ValueError.

(** ** plot_latent_node.py *)
(** lines 71-76, for 4 x 4 pictures; itertools.product([0, 2], repeat=2) *)
Definition patch_corners : list (nat * nat) := [(0, 0); (0, 2); (2, 0); (2, 2)]%nat.
Definition hidden_edges : list (nat * nat) :=
  flat_map (fun p => let '(i, (x, y)) := p in
    flat_map (fun j => map (fun k => ((i + 4 * 4)%nat, nth k (nth j (grid_inds 4 4) []) O)) (seq y 2)) (seq x 2))
    (combine (seq 0 4) patch_corners).
(** lines 47, 78, 86: (x.reshape(-1, 1), np.vstack([make_grid_edges(x), edges]), 2 * 2), for a raveled picture *)
Definition latent_node_x (x : list Qc) : res ln_x :=
  let! f := reshape x 16 1 in
  let! e := make_grid_edges 4 4 4 in
  Ok (LNX f (e ++ hidden_edges) (2 * 2)).
(** line 81: np.hstack([y.ravel(), np.random.randint(2, 4, size=2 * 2)]); the draws are an argument *)
Definition latent_node_h (y draws : list nat) : list nat := y ++ draws.
(** lines 63-64: LatentNodeCRF(n_labels=2, n_features=1, n_hidden_states=2), latent_node_features=False *)
Definition latent_node_crf : ln_crf := LNCRF 2 2 1 false [1; 1].

(** size / 2 as a dimension, line 30: rounded in Python 2, a float in Python 3, which reshape refuses *)
Inductive python := Python2 | Python3.
Definition half_size (v : python) (size : nat) : res nat :=
  match v with Python2 => Ok (size / 2)%nat | Python3 => Err TypeError end.
(** [plot_boxes], lines 19-36: the hidden and the visible pictures drawn.  With a single box
    plt.subplots does not return an array of axes in the dimension that is iterated over. *)
Definition plot_boxes (v : python) (size : nat) (boxes : list (list Qc)) : res (list mat * list mat) :=
  let! first := index boxes 0 in
  let! _ := ensure (negb (length boxes =? 1)%nat) TypeError in
  let visible x := reshape (firstn (size * size) x) size size in
  if (length first =? size * size)%nat
  then let! low := mapM visible boxes in Ok ([], low)
  else
    let! top := mapM (fun x => let! h := half_size v size in reshape (skipn (size * size) x) h h) boxes in
    let! low := mapM visible boxes in
    Ok (top, low).

(** ** image_segmentation.py *)
(** np.bincount of a non-empty integer array *)
Definition bincount (l : list nat) : list nat := map (fun s => count_occ Nat.eq_dec l s) (seq 0 (S (list_max l))).
(** lines 38-39.  np.hstack([]) raises; np.bincount refuses the float array np.hstack gives for empty
    lists; a class that does not occur gives 1 / 0 = inf, and after line 39 weights 0 and nan *)
Definition segmentation_weights (Y : list (list nat)) : res (list Qc) :=
  let! _ := ensure (negb (length Y =? 0)%nat) ValueError in
  let! _ := ensure (negb (length (concat Y) =? 0)%nat) TypeError in
  let counts := bincount (concat Y) in
  let! _ := ensure (forallb (fun c => negb (c =? 0)%nat) counts) NonFinite in
  let inv := map (fun c => 1 / ofN c) counts in
  Ok (map (fun v => v * (ofN 21 / lsum inv)) inv).
(** lines 60-64: void superpixels are left out; the mean of an empty array is nan.
    A prediction is an integer array per picture *)
Definition validation_score (void : nat) (y_pred y_true : list (list nat)) : res Qc :=
  let! _ := ensure (negb (length y_pred =? 0) && negb (length y_true =? 0))%nat ValueError in
  let mask := map (fun t => negb (t =? void)%nat) (concat y_true) in
  let! p := take_mask mask (concat y_pred) in
  let! t := take_mask mask (concat y_true) in
  let! _ := ensure (negb (length t =? 0)%nat) NonFinite in
  Ok (ofN (length (filter (fun q => fst q =? snd q)%nat (combine t p))) / ofN (length t)).

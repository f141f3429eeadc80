(** C89: what the data loader, the plotting helper and the example scripts compute: images of words, the split by
    folds, weights shown as pictures, the graph with a hidden node per patch, class weights, the validation score. *)
From Coq Require Import Permutation ZArith.
From Verif Require Import Spec.Energy Spec.GraphSpec Spec.GridSpec Spec.LossSpec Spec.DatasetSpec Spec.LatentNodeSpec Model.Scripts Model.Datasets.
From Verif Require Import Proofs.DatasetProofs5 Proofs.Scripts1 Proofs.Scripts2 Proofs.Scripts3.

(** ** load_letters *)
(** The image of a word of 16 x 8 letters: 16 rows, the letters next to each other from left to right. *)
Theorem C89_word_image word : word <> [] -> Forall (fun l => length l = 128%nat) word ->
  exists img, word_image word = Ok img /\ mat_ok img /\ mrows img = 16%nat /\ mcols img = (8 * length word)%nat /\
    forall l i c, (l < length word)%nat -> (i < 16)%nat -> (c < 8)%nat -> mget img i (8 * l + c) = get1 (nth l word []) (8 * i + c).
Proof. exact (word_image_spec word). Qed.
(** The letters can be read off the image. *)
Theorem C89_letters_recovered word word' img : word_image word = Ok img -> word_image word' = Ok img -> word = word'.
Proof. exact (letters_recovered word word' img). Qed.
(** An empty word, or a letter of another size, is refused. *)
Theorem C89_word_image_refused word : word = [] \/ (exists l, In l word /\ length l <> 128%nat) -> word_image word = Err ValueError.
Proof. exact (word_image_refused word). Qed.
Theorem C89_letter_images data : Forall (fun word => word <> [] /\ Forall (fun l => length l = 128%nat) word) data ->
  exists imgs, letter_images data = Ok imgs /\ length imgs = length data.
Proof. exact (letter_images_spec data). Qed.
(** two letters: the first white, the second black with one white pixel *)
Definition ex50_word : list (list Qc) := [repeat 0 128; 0 :: repeat 1 127].
Example C89_word_met : word_image ex50_word <> Err ValueError /\
  match word_image ex50_word with
  | Ok img => (mcols img, map (fun j => this (mget img 0 j)) [7; 8; 9]%nat, this (mget img 15 15)) = (16%nat, [0; 0; 1]%Q, 1%Q)
  | Err _ => False
  end.
Proof. vm_compute. split; [discriminate|reflexivity]. Qed.

(** ** plot_grid *)
(** Lines are drawn half way between neighbouring cells, one less than cells. *)
Theorem C89_grid_ticks n : length (grid_ticks n) = (n - 1)%nat /\
  forall i, (S i < n)%nat -> ofN i < nth i (grid_ticks n) 0 /\ nth i (grid_ticks n) 0 < ofN (S i) /\ nth i (grid_ticks n) 0 - ofN i = ofN (S i) - nth i (grid_ticks n) 0.
Proof. exact (ticks_spec n). Qed.
Example C89_ticks_met : map this (grid_ticks 4) = [(1 # 2); (3 # 2); (5 # 2)]%Q.
Proof. vm_compute. reflexivity. Qed.

(** ** plot_letters.py *)
(** Splitting by folds loses and repeats nothing: fold 1 for training, the others for testing; a wrong number of folds
    raises IndexError. *)
Theorem C89_fold_split {A} folds (l : list A) : length folds = length l -> exists train test, fold_split folds l = Ok (train, test) /\
  Permutation (train ++ test) l /\
  (forall a, In a train <-> exists i, nth_error l i = Some a /\ nth i folds O = 1%nat) /\
  (forall a, In a test <-> exists i, nth_error l i = Some a /\ nth i folds O <> 1%nat).
Proof. exact (fold_split_spec folds l). Qed.
Theorem C89_fold_split_refused {A} folds (l : list A) : length folds <> length l -> fold_split folds l = Err IndexError.
Proof. exact (fold_split_refused folds l). Qed.
(** Splitting words and labels separately keeps every word with its labels. *)
Theorem C89_fold_split_pairs {A B} folds (l : list A) (r : list B) a b c d : fold_split folds l = Ok (a, b) -> fold_split folds r = Ok (c, d) ->
  fold_split folds (combine l r) = Ok (combine a c, combine b d) /\ length a = length c /\ length b = length d.
Proof. exact (fold_split_pairs folds l r a b c d). Qed.
Example C89_folds_met : fold_split [1; 0; 1; 2]%nat [10; 11; 12; 13]%nat = Ok ([10; 12]%nat, [11; 13]%nat).
Proof. reflexivity. Qed.
(** The picture titled "Transition parameters of the chain CRF" is what the score adds for consecutive letters. *)
Theorem C89_transition_parameters k F x w y : mat_ok x -> mcols x = F -> length w = (k * F + k * k)%nat -> labelling (mrows x) k y ->
  exists T psi, transition_parameters k F w = Ok T /\ g_joint_feature (GraphCRF k F true) (chain_x x) (Discrete y) = Ok psi /\
    dot w psi = sumn (mrows x) (fun i => unary_score F w (mget x i) (lab y i)) +
                sumn (mrows x - 1) (fun i => mget T (lab y i) (lab y (S i))).
Proof. exact (transitions_spec k F x w y). Qed.
(** With weights of another size, such as those of an undirected model, the picture cannot be made. *)
Theorem C89_transitions_refused k F w : length w <> (k * F + k * k)%nat -> (0 < k)%nat -> transition_parameters k F w = Err ValueError.
Proof. exact (transitions_refused k F w). Qed.

(** ** plot_directional_grid.py *)
(** The three pictures: unary weights, weights of horizontal edges, weights of vertical edges, as their titles say. *)
Theorem C89_weight_plots x w y es : make_grid_edges (gr_h x) (gr_w x) 4 = Ok es -> length (gr_data x) = (gr_h x * gr_w x * 3)%nat ->
  length w = 27%nat -> labelling (gr_h x * gr_w x) 3 y ->
  exists W0 W1 W2 psi, weight_plot 3 w 0 = Ok W0 /\ weight_plot 3 w 1 = Ok W1 /\ weight_plot 3 w 2 = Ok W2 /\
    dir_joint_feature (GridCRF 3 3 4) x (EDiscrete y) = Ok psi /\
    dot w psi = sumn (gr_h x * gr_w x) (fun i => sumn 3 (fun f => mget W0 (lab y i) f * get1 (gr_data x) (i * 3 + f))) +
      sumn (length es) (fun e => let '(a, b) := nth e es (0, 0)%nat in
        mget (if (row_dist (gr_w x) a b =? 0)%nat then W1 else W2) (lab y a) (lab y b)).
Proof. exact (weight_plots_spec x w y es). Qed.
(** met: a 1 x 2 grid, states 0 and 2: the weights are the numbers 0 .. 26 *)
Definition ex50_grid : grid_x := GridX 1 2 3 [1; 0; 0; 0; 0; 1].
Definition ex50_w : list Qc := map ofN (seq 0 27).
Example C89_weight_plots_met : make_grid_edges 1 2 4 = Ok [(0, 1)]%nat /\ length ex50_w = 27%nat /\
  match dir_joint_feature (GridCRF 3 3 4) ex50_grid (EDiscrete [0; 2]%nat) with Ok psi => this (dot ex50_w psi) = (inject_Z (0 + 8 + (9 + 2))) | Err _ => False end.
Proof. vm_compute. repeat split. Qed.

(** ** plot_latent_node.py *)
(** A hidden node for every 2 x 2 patch: the cell in row r and column c is joined to the node of its patch, once, and to
    no other hidden node. *)
Theorem C89_hidden_edges a v : In (a, v) hidden_edges <->
  exists r c, (r < 4)%nat /\ (c < 4)%nat /\ v = (4 * r + c)%nat /\ a = (16 + (2 * (r / 2) + c / 2))%nat.
Proof. exact (hidden_edges_spec a v). Qed.
Theorem C89_hidden_edges_once : NoDup hidden_edges.
Proof. exact hidden_edges_nodup. Qed.
(** Every 4 x 4 picture gives an instance that LatentNodeCRF accepts, with 16 visible and 4 hidden nodes. *)
Theorem C89_latent_instance x : length x = 16%nat ->
  exists X, latent_node_x x = Ok X /\ node_instance latent_node_crf X 16 /\ lx_hidden X = 4%nat /\
    (forall i, (i < 16)%nat -> mget (lx_features X) i 0 = get1 x i) /\
    exists es, make_grid_edges 4 4 4 = Ok es /\ lx_edges X = es ++ hidden_edges.
Proof. exact (latent_node_x_spec x). Qed.
Theorem C89_latent_instance_refused x : length x <> 16%nat -> latent_node_x x = Err ValueError.
Proof. exact (latent_node_x_refused x). Qed.
(** The random initial states are completions of the labels. *)
Theorem C89_initial_states y draws : labelling 16 2 y -> length draws = 4%nat -> Forall (fun s => (2 <= s < 4)%nat) draws ->
  completes 2 2 4 y (latent_node_h y draws) /\ two_level 2 2 16 4 (latent_node_h y draws).
Proof. exact (latent_node_h_spec y draws). Qed.
(** "That should make the model fairly simple": the box of a picture of make_simple_2x2 is one of the patches, so the cells
    joined to a hidden node have all the same label, and exactly one patch has label 1. *)
Theorem C89_boxes_are_patches : forall s p n_flips n, exists D q, make_simple_2x2 n_flips n s p = Done D q /\ length D = n /\
  Forall (fun xy : list Z * list nat => exists i, (i < 4)%nat /\ forall a v, In (a, v) hidden_edges -> lab (snd xy) v = if (a =? 16 + i)%nat then 1%nat else 0%nat) D.
Proof.
  intros s p n_flips n. destruct (simple_data s p n_flips n) as [D [q [E [L H]]]]. exists D, q. split; [exact E|]. split; [exact L|].
  eapply Forall_impl; [|exact H]. intros xy [_ [_ [[t [l [Ht [Hl B]]]] _]]]. exact (patch_of_box (snd xy) t l Ht Hl B).
Qed.
(** plot_boxes draws pictures without hidden nodes, in both versions of Python. *)
Theorem C89_plot_boxes_visible v size b c rest : Forall (fun x => length x = (size * size)%nat) (b :: c :: rest) ->
  exists low, plot_boxes v size (b :: c :: rest) = Ok ([], low) /\
    Forall2 (fun x M => forall i j, (i < size)%nat -> (j < size)%nat -> mget M i j = get1 x (i * size + j)) (b :: c :: rest) low.
Proof. exact (plot_boxes_visible b c rest v size). Qed.
(** With hidden nodes: in Python 2 the picture above shows node 16 + 2 i + j at (i, j), over its patch ... *)
Theorem C89_plot_boxes_python2 b c rest : Forall (fun x => length x = 20%nat) (b :: c :: rest) ->
  exists top low, plot_boxes Python2 4 (b :: c :: rest) = Ok (top, low) /\
    Forall2 (fun x M => mrows M = 2%nat /\ mcols M = 2%nat /\ forall i j, (i < 2)%nat -> (j < 2)%nat -> mget M i j = get1 x (16 + (2 * i + j))) (b :: c :: rest) top /\
    Forall2 (fun x M => mrows M = 4%nat /\ mcols M = 4%nat /\ forall i j, (i < 4)%nat -> (j < 4)%nat -> mget M i j = get1 x (4 * i + j)) (b :: c :: rest) low.
Proof. exact (plot_boxes_python2 b c rest). Qed.
(** ... in Python 3 [size / 2] is a float and reshape raises: the script stops before the latent model is trained. *)
Theorem C89_plot_boxes_python3_refuted b c rest size : length b <> (size * size)%nat -> plot_boxes Python3 size (b :: c :: rest) = Err TypeError.
Proof. exact (plot_boxes_python3 b c rest size). Qed.
(** One box, or none, is an error in both. *)
Theorem C89_plot_boxes_few v size b : plot_boxes v size [b] = Err TypeError /\ plot_boxes v size [] = Err IndexError.
Proof. exact (conj (plot_boxes_one v size b) (plot_boxes_none v size)). Qed.
Example C89_boxes_met : match plot_boxes Python2 4 [map ofN (seq 0 20); repeat 0 20] with
  | Ok (top, low) => map (map this) (mdat (nth 0 top (Mat 0 0 []))) = [[16; 17]; [18; 19]]%Q
  | Err _ => False
  end /\ plot_boxes Python3 4 [map ofN (seq 0 20); repeat 0 20] = Err TypeError.
Proof. vm_compute. split; reflexivity. Qed.

(** ** image_segmentation.py *)
(** If every class up to the largest one occurs: the weights are positive, sum to 21, the classes have the same total
    weight, and so all constant predictions have the same loss. *)
Theorem C89_class_weights Y : concat Y <> [] -> (forall s, (s < S (list_max (concat Y)))%nat -> In s (concat Y)) ->
  exists cw K, segmentation_weights Y = Ok cw /\ length cw = S (list_max (concat Y)) /\ 0 < K /\ lsum cw = ofN 21 /\
  (forall s, (s < S (list_max (concat Y)))%nat -> 0 < get1 cw s /\ get1 cw s * ofN (count_occ Nat.eq_dec (concat Y) s) = K) /\
  (forall s, (s < S (list_max (concat Y)))%nat -> hamming (length (concat Y)) (get1 cw) (lab (concat Y)) (fun _ => s) = ofN (list_max (concat Y)) * K).
Proof. exact (fun N U => class_weights_spec Y N U). Qed.
Example C89_class_weights_met : match segmentation_weights [[0; 1; 0]; [0; 2; 1]]%nat with
  | Ok cw => map this cw = [(42 # 11); (63 # 11); (126 # 11)]%Q
  | Err _ => False
  end.
Proof. vm_compute. reflexivity. Qed.
(** A class below the largest one that does not occur makes all weights 0 or nan. *)
Theorem C89_class_weights_absent Y s : concat Y <> [] -> (s < list_max (concat Y))%nat -> ~ In s (concat Y) -> segmentation_weights Y = Err NonFinite.
Proof. exact (fun N => class_weights_absent Y N s). Qed.
(** In particular the void label 255, which the script removes from the validation set only. *)
Theorem C89_class_weights_void Y : In 255%nat (concat Y) -> (forall s, In s (concat Y) -> (s < 21)%nat \/ s = 255%nat) -> segmentation_weights Y = Err NonFinite.
Proof. exact (class_weights_void Y). Qed.
Theorem C89_class_weights_empty Y : concat Y = [] -> segmentation_weights Y = Err (if (length Y =? 0)%nat then ValueError else TypeError).
Proof. exact (class_weights_empty Y). Qed.
(** The validation score: the share of right predictions among superpixels that are not void. *)
Theorem C89_validation_score void y_pred y_true : length (concat y_pred) = length (concat y_true) ->
  let kept := filter (fun i => negb (lab (concat y_true) i =? void)%nat) (seq 0 (length (concat y_true))) in
  kept <> [] ->
  validation_score void y_pred y_true =
    Ok (ofN (length (filter (fun i => (lab (concat y_true) i =? lab (concat y_pred) i)%nat) kept)) / ofN (length kept)).
Proof. exact (validation_score_spec void y_pred y_true). Qed.
Theorem C89_validation_all_void void y_pred y_true : length (concat y_pred) = length (concat y_true) ->
  filter (fun i => negb (lab (concat y_true) i =? void)%nat) (seq 0 (length (concat y_true))) = [] -> y_pred <> [] -> y_true <> [] ->
  validation_score void y_pred y_true = Err NonFinite.
Proof. exact (validation_score_void void y_pred y_true). Qed.
Theorem C89_validation_refused void y_pred y_true : length (concat y_pred) <> length (concat y_true) -> y_pred <> [] -> y_true <> [] ->
  validation_score void y_pred y_true = Err IndexError.
Proof. exact (validation_score_refused void y_pred y_true). Qed.
Example C89_validation_met : match validation_score 255 [[1; 2]; [0]]%nat [[1; 255]; [2]]%nat with Ok q => this q = (1 # 2)%Q | Err _ => False end.
Proof. vm_compute. reflexivity. Qed.
Print Assumptions C89_word_image.
Print Assumptions C89_letters_recovered.
Print Assumptions C89_word_image_refused.
Print Assumptions C89_letter_images.
Print Assumptions C89_grid_ticks.
Print Assumptions C89_fold_split.
Print Assumptions C89_fold_split_refused.
Print Assumptions C89_fold_split_pairs.
Print Assumptions C89_transition_parameters.
Print Assumptions C89_transitions_refused.
Print Assumptions C89_weight_plots.
Print Assumptions C89_hidden_edges.
Print Assumptions C89_hidden_edges_once.
Print Assumptions C89_latent_instance.
Print Assumptions C89_latent_instance_refused.
Print Assumptions C89_initial_states.
Print Assumptions C89_boxes_are_patches.
Print Assumptions C89_plot_boxes_visible.
Print Assumptions C89_plot_boxes_python2.
Print Assumptions C89_plot_boxes_python3_refuted.
Print Assumptions C89_plot_boxes_few.
Print Assumptions C89_class_weights.
Print Assumptions C89_class_weights_absent.
Print Assumptions C89_class_weights_void.
Print Assumptions C89_class_weights_empty.
Print Assumptions C89_validation_score.
Print Assumptions C89_validation_all_void.
Print Assumptions C89_validation_refused.

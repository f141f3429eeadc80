(** C76: the features of the snake examples: which pixels become which one-hot rows, what the patch of a pixel contains, and what
    the two kinds of edge features contain. *)
From Coq Require Import ZArith Lia.
From Verif Require Import Spec.SnakesSpec Proofs.Snakes.

(** A picture of pure colours is accepted; red, green, yellow, blue and cyan pixels become one-hot rows, black, magenta and white
    ones rows of zeros. *)
Theorem C76_one_hot (x : arr3) : pure_colours x -> a_c x = 3%nat -> (0 < a_h x * a_w x)%nat ->
  exists p, one_hot_colors x = Ok p /\ a_h p = a_h x /\ a_w p = a_w x /\ a_c p = 5%nat /\
    forall i j c, (i < a_h x)%nat -> (j < a_w x)%nat -> (c < 5)%nat ->
      aget p i j c = ind (is_channel (colour_channel (lit x i j 0) (lit x i j 1) (lit x i j 2)) c).
Proof. exact (one_hot_pure x). Qed.
(** "one_hot" is not true of every picture of pure colours: a white pixel has no channel *)
Theorem C76_one_hot_refuted :
  exists x p, pure_colours x /\ a_c x = 3%nat /\ one_hot_colors x = Ok p /\ (0 < a_h x)%nat /\ (0 < a_w x)%nat /\
    forall c, (c < 5)%nat -> aget p 0 0 c = 0.
Proof.
  exists (atab 1 1 3 (fun _ _ _ => ofN 255)).
  destruct (one_hot_pure (atab 1 1 3 (fun _ _ _ => ofN 255))) as [p [E [_ [_ [_ G]]]]].
  - intros i j c Hi Hj Hc. right. apply aget_atab; assumption.
  - reflexivity.
  - cbn; lia.
  - exists p. split; [|split; [reflexivity|split; [exact E|split; [cbn; lia|split; [cbn; lia|]]]]].
    + intros i j c Hi Hj Hc. right. apply aget_atab; assumption.
    + intros c Hc. rewrite (G 0%nat 0%nat c ltac:(cbn; lia) ltac:(cbn; lia) Hc). reflexivity.
Qed.
(** empty pictures, pictures without three colour values, and pixels whose code is not an integer raise ValueError *)
Theorem C76_one_hot_errors (x : arr3) :
  (a_h x * a_w x = 0)%nat \/ a_c x <> 3%nat \/
  (exists i j, (i < a_h x)%nat /\ (j < a_w x)%nat /\
     forall z, (aget x i j 0 + ofN 2 * aget x i j 1 + ofN 4 * aget x i j 2) / ofN 255 <> ofZ z) ->
  one_hot_colors x = Err ValueError.
Proof. exact (one_hot_errors x). Qed.

(** Column 9 c + s of row i w + j is channel c of the neighbour at offset s; beyond the border there is background. *)
Theorem C76_patches (x : arr3) : a_c x = 5%nat -> (0 < a_h x * a_w x)%nat ->
  exists m, neighborhood_feature x = Ok m /\ mat_ok m /\ mrows m = (a_h x * a_w x)%nat /\ mcols m = 45%nat /\
    forall i j c s, (i < a_h x)%nat -> (j < a_w x)%nat -> (c < 5)%nat -> (s < 9)%nat ->
      mget m (i * a_w x + j) (c * 9 + s) = pixel_at x i j (patch_offset s) c.
Proof. exact (patch_ok x). Qed.
(** the nine positions are the nine offsets of the 3 x 3 neighbourhood, each once *)
Theorem C76_patch_offsets : forall di dj, (-1 <= di <= 1)%Z -> (-1 <= dj <= 1)%Z ->
  exists s, (s < 9)%nat /\ patch_offset s = (di, dj) /\ forall s', (s' < 9)%nat -> patch_offset s' = (di, dj) -> s' = s.
Proof. exact patch_offsets. Qed.

(** Both instances of a picture with at least two pixels fit an EdgeFeatureGraphCRF with 45 features and 2 or 180 edge features;
    they have the edges of the 4-neighbourhood.  The two-column edge features say whether the edge is horizontal or vertical; the
    others hold the patches of both ends in columns that depend on the direction. *)
Theorem C76_prepare (x : arr3) (k : nat) : a_c x = 5%nat -> (2 <= a_h x * a_w x)%nat ->
  exists d e m, prepare_picture x = Ok (d, e) /\ neighborhood_feature x = Ok m /\
    ex_features d = m /\ ex_features e = m /\ ex_edges e = ex_edges d /\
    make_grid_edges (a_h x) (a_w x) 4 = Ok (ex_edges d) /\
    ef_check_x (EFCRF k 45 2 [] []) d = Ok tt /\ ef_check_x (EFCRF k 45 180 [] []) e = Ok tt /\
    (forall i, (i < length (ex_edges d))%nat ->
       let ab := nth i (ex_edges d) (0, 0)%nat in
       mget (ex_edge_features d) i 0 = ind (row_dist (a_w x) (fst ab) (snd ab) =? 0)%nat /\
       mget (ex_edge_features d) i 1 = ind (col_dist (a_w x) (fst ab) (snd ab) =? 0)%nat) /\
    (forall i f, (i < length (ex_edges d))%nat -> (f < 45)%nat ->
       let ab := nth i (ex_edges d) (0, 0)%nat in
       let o := edge_column (a_w x) ab in
       mget (ex_edge_features e) i (f * 4 + o) = mget m (fst ab) f /\
       mget (ex_edge_features e) i (f * 4 + (o + 1)) = mget m (snd ab) f /\
       mget (ex_edge_features e) i (f * 4 + (2 - o)) = 0 /\ mget (ex_edge_features e) i (f * 4 + (3 - o)) = 0).
Proof. exact (prepare_ok x k). Qed.
(** a picture without edges, or with a number of channels other than 5 or 1, raises ValueError *)
Theorem C76_prepare_errors (x : arr3) :
  (a_h x * a_w x <= 1)%nat \/ (a_c x <> 5%nat /\ a_c x <> 1%nat) -> prepare_picture x = Err ValueError.
Proof. exact (prepare_errors x). Qed.
(** Consequence for the model: the score of an edge is linear in the patches of its two ends, with one set of weights for
    horizontal and another one for vertical edges. *)
Theorem C76_edge_score (x : arr3) (k : nat) (d e : ef_x) (m : mat) (w : list Qc) (i s t : nat) :
  a_c x = 5%nat -> prepare_picture x = Ok (d, e) -> neighborhood_feature x = Ok m -> (i < length (ex_edges e))%nat ->
  let ab := nth i (ex_edges e) (0, 0)%nat in
  let o := edge_column (a_w x) ab in
  edge_score 180 k 45 w (mget (ex_edge_features e) i) s t =
    sumn 45 (fun f => mget m (fst ab) f * edge_weight k 45 w (f * 4 + o) s t +
                      mget m (snd ab) f * edge_weight k 45 w (f * 4 + (o + 1)) s t).
Proof. exact (snake_edge_score x k d e m w i s t). Qed.
(** a data set is prepared picture by picture, in order *)
Theorem C76_prepare_data (X : list arr3) : Forall (fun x => a_c x = 5%nat /\ (2 <= a_h x * a_w x)%nat) X ->
  exists D E, prepare_data X = Ok (D, E) /\ length D = length X /\ length E = length X /\
    forall n x, nth_error X n = Some x -> exists d e, nth_error D n = Some d /\ nth_error E n = Some e /\ prepare_picture x = Ok (d, e).
Proof. exact (prepare_data_ok X). Qed.

(** ** Example: a picture of 2 x 3 pixels: blue red blue / cyan white green *)
Definition ex37_x : arr3 := Arr3 2 3 3
  (map (map (map ofN)) [[[0; 0; 255]; [255; 0; 0]; [0; 0; 255]]; [[0; 255; 255]; [255; 255; 255]; [0; 255; 0]]]%nat).
Example ex37_pure : pure_colours ex37_x.
Proof.
  intros i j c Hi Hj Hc. cbn in Hi, Hj.
  destruct i as [|[|i]]; [| |lia]; (destruct j as [|[|[|j]]]; [| | |lia]); (destruct c as [|[|[|c]]]; [| | |lia]);
    first [left; apply Qc_is_canon; vm_compute; reflexivity | right; apply Qc_is_canon; vm_compute; reflexivity].
Qed.
Example ex37_colours :
  match one_hot_colors ex37_x with
  | Ok p => map (map (map (fun q => Qnum (this q)))) (a_dat p) =
      [[[0; 0; 0; 1; 0]; [1; 0; 0; 0; 0]; [0; 0; 0; 1; 0]]; [[0; 0; 0; 0; 1]; [0; 0; 0; 0; 0]; [0; 1; 0; 0; 0]]]%Z
  | Err _ => False
  end.
Proof. vm_compute. reflexivity. Qed.
(** seven edges; the first edge joins pixels 0 and 1: position 8 (the pixel itself) of channel 3 and of channel 0 *)
Example ex37_prepared :
  match (let! p := one_hot_colors ex37_x in prepare_picture p) with
  | Ok (d, e) => (length (ex_edges d), mrows (ex_features d), mcols (ex_edge_features e)) = (7, 6, 180)%nat /\
      (nth 0 (ex_edges e) (0, 0), nth 4 (ex_edges e) (0, 0))%nat = ((0, 1), (0, 3))%nat /\
      map (fun f => Qnum (this (mget (ex_edge_features e) 0 f))) [140; 33; 141; 32; 142]%nat = [1; 1; 0; 0; 0]%Z /\
      map (fun f => Qnum (this (mget (ex_edge_features e) 4 f))) [142; 179; 140; 177]%nat = [1; 1; 0; 0]%Z
  | Err _ => False
  end.
Proof. vm_compute. repeat split; reflexivity. Qed.

Print Assumptions C76_one_hot.
Print Assumptions C76_one_hot_refuted.
Print Assumptions C76_one_hot_errors.
Print Assumptions C76_patches.
Print Assumptions C76_patch_offsets.
Print Assumptions C76_prepare.
Print Assumptions C76_prepare_errors.
Print Assumptions C76_edge_score.
Print Assumptions C76_prepare_data.

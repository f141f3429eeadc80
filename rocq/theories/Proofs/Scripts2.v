(** The hidden nodes of plot_latent_node.py, the class weights and the score of image_segmentation.py. *)
From Coq Require Import Lia Permutation ZArith.
From Verif Require Import Base.Sums Proofs.Arrays Proofs.LossProofs Proofs.GridProofs2 Proofs.Scripts1 Proofs.DatasetProofs5.
From Verif Require Import Spec.DatasetSpec Spec.LatentNodeSpec Model.Scripts Model.Datasets.

(** ** hidden nodes *)
Lemma hidden_edges_list : hidden_edges =
  [(16, 0); (16, 1); (16, 4); (16, 5); (17, 2); (17, 3); (17, 6); (17, 7); (18, 8); (18, 9); (18, 12); (18, 13); (19, 10); (19, 11); (19, 14); (19, 15)]%nat.
Proof. reflexivity. Qed.
Lemma hidden_edges_spec a v : In (a, v) hidden_edges <->
  exists r c, (r < 4)%nat /\ (c < 4)%nat /\ v = (4 * r + c)%nat /\ a = (16 + (2 * (r / 2) + c / 2))%nat.
Proof.
  rewrite hidden_edges_list. split.
  - intros H. exists (v / 4)%nat, (v mod 4)%nat.
    cbn [In] in H. repeat (destruct H as [H|H]; [injection H as <- <-; vm_compute; repeat split; lia|]). destruct H.
  - intros [r [c [Hr [Hc [-> ->]]]]].
    do 4 (destruct r as [|r]; [do 4 (destruct c as [|c]; [cbn; tauto|]); lia|]). lia.
Qed.
Lemma hidden_edges_nodup : NoDup hidden_edges.
Proof. rewrite hidden_edges_list. repeat (constructor; [cbn; intuition congruence|]). constructor. Qed.
Lemma latent_node_x_spec x : length x = 16%nat ->
  exists X, latent_node_x x = Ok X /\ node_instance latent_node_crf X 16 /\ lx_hidden X = 4%nat /\
    (forall i, (i < 16)%nat -> mget (lx_features X) i 0 = get1 x i) /\
    exists es, make_grid_edges 4 4 4 = Ok es /\ lx_edges X = es ++ hidden_edges.
Proof.
  intros H. unfold latent_node_x. rewrite (reshape_ok x 16 1 H). cbn [bind].
  destruct (make_grid_edges 4 4 4) as [es|] eqn:E; [|discriminate]. cbn [bind]. eexists. split; [reflexivity|].
  pose proof (grid_edges_sound _ _ _ _ E) as HG. split.
  - constructor; cbn [lx_features lx_edges lx_hidden latent_node_crf ln_features ln_node_features].
    + apply mtab_ok.
    + reflexivity.
    + reflexivity.
    + apply Forall_app. split.
      * eapply Forall_impl; [|exact HG]. intros e He. change (4 * 4)%nat with 16%nat in He. destruct He. split; lia.
      * rewrite hidden_edges_list. repeat (constructor; [cbn; lia|]). constructor.
  - split; [reflexivity|]. split.
    + intros i Hi. cbn [lx_features]. rewrite mget_mtab by lia. f_equal. lia.
    + exists es. split; reflexivity.
Qed.
Lemma latent_node_x_refused x : length x <> 16%nat -> latent_node_x x = Err ValueError.
Proof. intros H. unfold latent_node_x. rewrite reshape_err by lia. reflexivity. Qed.
Lemma latent_node_h_spec y draws : labelling 16 2 y -> length draws = 4%nat -> Forall (fun s => (2 <= s < 4)%nat) draws ->
  completes 2 2 4 y (latent_node_h y draws) /\ two_level 2 2 16 4 (latent_node_h y draws).
Proof.
  intros HY HL HD. assert (HC : completes 2 2 4 y (latent_node_h y draws)) by (exists draws; repeat split; assumption).
  split; [exact HC|]. exists y. split; assumption.
Qed.
(** a box of ones placed in one patch *)
Lemma patch_of_box y t l : (t = 0 \/ t = 2)%nat -> (l = 0 \/ l = 2)%nat ->
  (forall i j, (i < 4)%nat -> (j < 4)%nat -> pixel 4 y i j = if in_box 2 2 t l i j then 1%nat else 0%nat) ->
  exists p, (p < 4)%nat /\ forall a v, In (a, v) hidden_edges -> lab y v = if (a =? 16 + p)%nat then 1%nat else 0%nat.
Proof.
  intros Ht Hl H. exists (t + l / 2)%nat. split; [destruct Ht as [->| ->], Hl as [->| ->]; vm_compute; lia|].
  intros a v Hv. apply hidden_edges_spec in Hv. destruct Hv as [r [c [Hr [Hc [-> ->]]]]].
  specialize (H r c Hr Hc). unfold pixel in H. unfold lab. rewrite (Nat.mul_comm 4 r), H. clear H.
  destruct Ht as [->| ->], Hl as [->| ->]; do 4 (destruct r as [|r]; [do 4 (destruct c as [|c]; [vm_compute; reflexivity|]); lia|]); lia.
Qed.

(** ** plot_boxes *)
Lemma plot_boxes_none v size : plot_boxes v size [] = Err IndexError.
Proof. reflexivity. Qed.
Lemma plot_boxes_one v size b : plot_boxes v size [b] = Err TypeError.
Proof. reflexivity. Qed.
Section Boxes.
Variables (b c : list Qc) (rest : list (list Qc)).
Let boxes := b :: c :: rest.
Lemma many_boxes : (length boxes =? 1)%nat = false.
Proof. reflexivity. Qed.
Lemma plot_boxes_visible v size : Forall (fun x => length x = (size * size)%nat) boxes ->
  exists low, plot_boxes v size boxes = Ok ([], low) /\
    Forall2 (fun x M => forall i j, (i < size)%nat -> (j < size)%nat -> mget M i j = get1 x (i * size + j)) boxes low.
Proof.
  intros H. unfold plot_boxes. change (index boxes 0) with (Ok b). cbn [bind]. rewrite many_boxes. cbn [negb ensure bind].
  rewrite (Forall_inv H), Nat.eqb_refl.
  set (vis := fun x => mtab size size (fun i j => get1 x (i * size + j))).
  rewrite (mapM_ok (fun x => reshape (firstn (size * size) x) size size) vis boxes).
  - cbn [bind]. exists (map vis boxes). split; [reflexivity|]. clear. induction boxes as [|x l IH]; [constructor|].
    cbn [map]. constructor; [|exact IH]. intros i j Hi Hj. unfold vis. apply mget_mtab; assumption.
  - intros x Hx. rewrite Forall_forall in H. pose proof (H x Hx) as L. rewrite firstn_all2 by lia. apply reshape_ok. exact L.
Qed.
Lemma plot_boxes_python2 : Forall (fun x => length x = 20%nat) boxes ->
  exists top low, plot_boxes Python2 4 boxes = Ok (top, low) /\
    Forall2 (fun x M => mrows M = 2%nat /\ mcols M = 2%nat /\ forall i j, (i < 2)%nat -> (j < 2)%nat -> mget M i j = get1 x (16 + (2 * i + j))) boxes top /\
    Forall2 (fun x M => mrows M = 4%nat /\ mcols M = 4%nat /\ forall i j, (i < 4)%nat -> (j < 4)%nat -> mget M i j = get1 x (4 * i + j)) boxes low.
Proof.
  intros H. unfold plot_boxes. change (index boxes 0) with (Ok b). cbn [bind]. rewrite many_boxes. cbn [negb ensure bind].
  rewrite (Forall_inv H). change (20 =? 4 * 4)%nat with false. cbv beta iota.
  set (hid := fun x => mtab 2 2 (fun i j => get1 (skipn (4 * 4) x) (i * 2 + j))).
  set (vis := fun x => mtab 4 4 (fun i j => get1 (firstn (4 * 4) x) (i * 4 + j))).
  rewrite Forall_forall in H.
  rewrite (mapM_ok (fun x => let! h := half_size Python2 4 in reshape (skipn (4 * 4) x) h h) hid boxes).
  - cbn [bind]. rewrite (mapM_ok (fun x => reshape (firstn (4 * 4) x) 4 4) vis boxes).
    + cbn [bind]. exists (map hid boxes), (map vis boxes). split; [reflexivity|]. clear. split.
      * induction boxes as [|x l IH]; [constructor|]. cbn [map]. constructor; [|exact IH]. split; [reflexivity|]. split; [reflexivity|].
        intros i j Hi Hj. unfold hid. rewrite mget_mtab by assumption. rewrite get1_skipn. f_equal. lia.
      * induction boxes as [|x l IH]; [constructor|]. cbn [map]. constructor; [|exact IH]. split; [reflexivity|]. split; [reflexivity|].
        intros i j Hi Hj. unfold vis. rewrite mget_mtab by assumption. rewrite get1_firstn by lia. f_equal. lia.
    + intros x Hx. apply reshape_ok. rewrite firstn_length, (H x Hx). reflexivity.
  - intros x Hx. cbn [half_size bind]. change (4 / 2)%nat with 2%nat. apply reshape_ok. rewrite skipn_length, (H x Hx). reflexivity.
Qed.
Lemma plot_boxes_python3 size : length b <> (size * size)%nat -> plot_boxes Python3 size boxes = Err TypeError.
Proof.
  intros H. unfold plot_boxes. change (index boxes 0) with (Ok b). cbn [bind]. rewrite many_boxes. cbn [negb ensure bind].
  apply Nat.eqb_neq in H. rewrite H. reflexivity.
Qed.
End Boxes.

(** The letter images, grid ticks, folds and weight plots of Model/Scripts.v. *)
From Coq Require Import Lia Permutation.
From Verif Require Import Base.Sums Proofs.Arrays Proofs.LossProofs Proofs.CRFProofs Proofs.InstanceProofs Proofs.ChainProofs Proofs.ViterbiProofs Proofs.GraphCRFProofs Proofs.GridProofs Proofs.GridProofs2.
From Verif Require Import Spec.Energy Spec.GraphSpec Spec.EdgeSpec Spec.GridSpec Spec.TaskInstances Model.Scripts.

Definition letter (l : list Qc) : mat := mtab 16 8 (fun i j => get1 l (i * 8 + j)).
Lemma letter_ok l : length l = (16 * 8)%nat -> reshape l 16 8 = Ok (letter l).
Proof. intros H. unfold reshape. rewrite H, Nat.eqb_refl. reflexivity. Qed.
Lemma letters_ok word : Forall (fun l => length l = (16 * 8)%nat) word -> mapM (fun l => reshape l 16 8) word = Ok (map letter word).
Proof.
  intros H. apply (mapM_ok (fun l => reshape l 16 8) letter). intros l Hl. apply letter_ok. rewrite Forall_forall in H. apply H. exact Hl.
Qed.
Lemma letter_row l i : (i < 16)%nat -> nth i (mdat (letter l)) [] = tab1 8 (fun j => get1 l (i * 8 + j)).
Proof. intros H. unfold letter, mtab. cbn [mdat]. rewrite nth_tab2 by exact H. reflexivity. Qed.
Lemma same_rows word r : forallb (fun b => (mrows b =? mrows (letter r))%nat) (map letter word) = true.
Proof. apply forallb_forall. intros b Hb. apply in_map_iff in Hb. destruct Hb as [l [<- _]]. apply Nat.eqb_refl. Qed.
Definition image (word : list (list Qc)) : mat :=
  Mat 16 (list_sum (map mcols (map letter word))) (map (fun i => concat (map (fun b => nth i (mdat b) []) (map letter word))) (seq 0 16)).
Lemma word_image_eq word : word <> [] -> Forall (fun l => length l = (16 * 8)%nat) word -> word_image word = Ok (image word).
Proof.
  intros HN HF. unfold word_image. rewrite (letters_ok word HF). cbn [bind]. destruct word as [|r rest]; [contradiction|].
  unfold hstack2. cbn [map]. change (letter r :: map letter rest) with (map letter (r :: rest)).
  rewrite (same_rows (r :: rest) r). reflexivity.
Qed.
Lemma image_cols word : list_sum (map mcols (map letter word)) = (8 * length word)%nat.
Proof. induction word as [|l w IH]; [reflexivity|]. cbn [map list_sum fold_right length]. unfold list_sum in IH. rewrite IH. cbn [letter mtab mcols]. lia. Qed.
Lemma image_row_length word i : (i < 16)%nat -> length (concat (map (fun b => nth i (mdat b) []) (map letter word))) = (8 * length word)%nat.
Proof.
  intros H. induction word as [|l w IH]; [reflexivity|]. cbn [map concat length]. rewrite app_length, IH, (letter_row l i H), tab1_length. lia.
Qed.
Lemma image_entry word i : (i < 16)%nat -> forall l c, (l < length word)%nat -> (c < 8)%nat ->
  get1 (concat (map (fun b => nth i (mdat b) []) (map letter word))) (8 * l + c) = get1 (nth l word []) (8 * i + c).
Proof.
  intros H. induction word as [|r w IH]; intros l c Hl Hc; cbn [length] in Hl; [lia|]. cbn [map concat]. rewrite (letter_row r i H). unfold get1 at 1.
  destruct l as [|l].
  - rewrite app_nth1 by (rewrite tab1_length; lia). cbn [nth]. replace (8 * 0 + c)%nat with c by lia.
    fold (get1 (tab1 8 (fun j => get1 r (i * 8 + j))) c). rewrite get1_tab1 by exact Hc. f_equal. lia.
  - rewrite app_nth2 by (rewrite tab1_length; lia). rewrite tab1_length. replace (8 * S l + c - 8)%nat with (8 * l + c)%nat by lia.
    fold (get1 (concat (map (fun b => nth i (mdat b) []) (map letter w))) (8 * l + c)). rewrite IH by lia. reflexivity.
Qed.
Lemma image_ok word : mat_ok (image word).
Proof.
  unfold mat_ok, image. cbn [mrows mcols mdat]. split; [rewrite map_length, seq_length; reflexivity|]. rewrite image_cols.
  intros r Hr || apply Forall_forall; try (intros r Hr); apply in_map_iff in Hr; destruct Hr as [i [<- Hi]]; apply in_seq in Hi; apply image_row_length; lia.
Qed.
Lemma image_pixel word l i c : (l < length word)%nat -> (i < 16)%nat -> (c < 8)%nat ->
  mget (image word) i (8 * l + c) = get1 (nth l word []) (8 * i + c).
Proof.
  intros Hl Hi Hc. unfold mget, get2, image. cbn [mdat]. rewrite nth_map_seq by exact Hi. apply image_entry; assumption.
Qed.
Lemma word_image_spec word : word <> [] -> Forall (fun l => length l = 128%nat) word ->
  exists img, word_image word = Ok img /\ mat_ok img /\ mrows img = 16%nat /\ mcols img = (8 * length word)%nat /\
    forall l i c, (l < length word)%nat -> (i < 16)%nat -> (c < 8)%nat -> mget img i (8 * l + c) = get1 (nth l word []) (8 * i + c).
Proof.
  intros HN HF. exists (image word). split; [exact (word_image_eq word HN HF)|]. split; [apply image_ok|]. split; [reflexivity|].
  split; [apply image_cols|]. intros l i c. apply image_pixel.
Qed.
Lemma word_image_refused word : word = [] \/ (exists l, In l word /\ length l <> 128%nat) -> word_image word = Err ValueError.
Proof.
  intros [->|[l [Hl HL]]]; [reflexivity|]. unfold word_image. rewrite (mapM_err _ ValueError word); [reflexivity| |].
  - intros a _. unfold reshape. destruct (length a =? 16 * 8)%nat; [left; eexists; reflexivity|right; reflexivity].
  - exists l. split; [exact Hl|]. apply reshape_err. exact HL.
Qed.
Lemma word_image_inv word img : word_image word = Ok img -> word <> [] /\ Forall (fun l => length l = 128%nat) word.
Proof.
  intros E. split; [intros ->; discriminate|]. apply Forall_forall. intros l Hl.
  destruct (Nat.eq_dec (length l) 128) as [H|H]; [exact H|]. rewrite (word_image_refused word) in E by (right; exists l; auto). discriminate.
Qed.
Lemma letters_recovered word word' img : word_image word = Ok img -> word_image word' = Ok img -> word = word'.
Proof.
  intros E E'. destruct (word_image_inv _ _ E) as [N F]. destruct (word_image_inv _ _ E') as [N' F'].
  destruct (word_image_spec word N F) as [i1 [E1 [_ [_ [C1 V1]]]]]. destruct (word_image_spec word' N' F') as [i2 [E2 [_ [_ [C2 V2]]]]].
  assert (i1 = img) by congruence. assert (i2 = img) by congruence. subst i1 i2.
  assert (L : length word = length word') by lia. rewrite Forall_forall in F, F'.
  apply (nth_ext word word' [] [] L). intros l Hl. apply vec_ext.
  - transitivity 128%nat; [|symmetry]; [apply F|apply F']; apply nth_In; lia.
  - intros p Hp. rewrite F in Hp by (apply nth_In; exact Hl).
    rewrite (Nat.div_mod p 8) by lia. assert (p mod 8 < 8)%nat by (apply Nat.mod_upper_bound; lia).
    assert (p / 8 < 16)%nat by (apply Nat.div_lt_upper_bound; lia).
    rewrite <- V1, <- V2 by lia. reflexivity.
Qed.
Lemma letter_images_spec data : Forall (fun word => word <> [] /\ Forall (fun l => length l = 128%nat) word) data ->
  exists imgs, letter_images data = Ok imgs /\ length imgs = length data.
Proof.
  intros H. unfold letter_images. rewrite (mapM_ok _ image data).
  - eexists. split; [reflexivity|apply map_length].
  - intros w Hw. rewrite Forall_forall in H. destruct (H w Hw). apply word_image_eq; assumption.
Qed.

(** ** ticks *)
Lemma ticks_spec n : length (grid_ticks n) = (n - 1)%nat /\
  forall i, (S i < n)%nat -> ofN i < nth i (grid_ticks n) 0 /\ nth i (grid_ticks n) 0 < ofN (S i) /\ nth i (grid_ticks n) 0 - ofN i = ofN (S i) - nth i (grid_ticks n) 0.
Proof.
  unfold grid_ticks. split; [rewrite map_length, seq_length; reflexivity|]. intros i H.
  assert (E : nth i (map (fun i => ofN i - / (1 + 1)) (seq 1 (n - 1))) 0 = ofN (S i) - / (1 + 1)).
  { rewrite (nth_map_in _ _ _ O) by (rewrite seq_length; lia). rewrite seq_nth by lia. reflexivity. }
  rewrite E, ofN_S. assert (HH : / (1 + 1) + / (1 + 1) = 1) by (apply Qc_is_canon; vm_compute; reflexivity).
  assert (HP : 0 < / (1 + 1)) by (vm_compute; reflexivity).
  repeat split.
  - qclra.
  - qclra.
  - apply Qcle_antisym; qclra.
Qed.

(** ** folds *)
Lemma masks_perm {A} (m : list bool) : forall l : list A, length m = length l ->
  Permutation (map snd (filter fst (combine m l)) ++ map snd (filter fst (combine (map negb m) l))) l.
Proof.
  induction m as [|b m IH]; intros [|a l] H; try discriminate; [constructor|]. injection H as H. specialize (IH l H).
  destruct b; cbn [combine filter fst map snd negb app].
  - constructor. exact IH.
  - apply Permutation_sym, Permutation_cons_app, Permutation_sym. exact IH.
Qed.
Lemma mask_in {A} (m : list bool) : forall (l : list A) a, length m = length l ->
  (In a (map snd (filter fst (combine m l))) <-> exists i, nth_error l i = Some a /\ nth i m false = true).
Proof.
  induction m as [|b m IH]; intros [|x l] a H; try discriminate.
  - split; [intros []|]. intros [i [E _]]. destruct i; discriminate.
  - injection H as H. destruct b; cbn [combine filter fst map snd].
    + cbn [In]. rewrite (IH l a H). split.
      * intros [->|[i [E1 E2]]]; [exists O; split; reflexivity|exists (S i); split; assumption].
      * intros [[|i] [E1 E2]]; [left; cbn in E1; congruence|right; exists i; split; assumption].
    + rewrite (IH l a H). split.
      * intros [i [E1 E2]]. exists (S i). split; assumption.
      * intros [[|i] [E1 E2]]; [discriminate|exists i; split; assumption].
Qed.
Lemma mask_combine {A B} (m : list bool) : forall (l : list A) (r : list B), length m = length l -> length m = length r ->
  map snd (filter fst (combine m (combine l r))) = combine (map snd (filter fst (combine m l))) (map snd (filter fst (combine m r))).
Proof.
  induction m as [|b m IH]; intros [|x l] [|y r] H H'; try discriminate; [reflexivity|]. injection H as H. injection H' as H'.
  destruct b; cbn [combine filter fst map snd]; rewrite (IH l r H H'); reflexivity.
Qed.
Lemma take_mask_ok {A} m (l : list A) : length m = length l -> take_mask m l = Ok (map snd (filter fst (combine m l))).
Proof. intros H. unfold take_mask. rewrite H, Nat.eqb_refl. reflexivity. Qed.
Lemma fold_split_ok {A} folds (l : list A) : length folds = length l ->
  fold_split folds l = Ok (map snd (filter fst (combine (map (fun f => f =? 1)%nat folds) l)),
                           map snd (filter fst (combine (map negb (map (fun f => f =? 1)%nat folds)) l))).
Proof.
  intros H. unfold fold_split. rewrite take_mask_ok by (rewrite map_length; exact H). cbn [bind].
  rewrite take_mask_ok by (rewrite map_length; exact H). cbn [bind]. rewrite map_map. reflexivity.
Qed.
Lemma fold_split_spec {A} folds (l : list A) : length folds = length l -> exists train test, fold_split folds l = Ok (train, test) /\
  Permutation (train ++ test) l /\
  (forall a, In a train <-> exists i, nth_error l i = Some a /\ nth i folds O = 1%nat) /\
  (forall a, In a test <-> exists i, nth_error l i = Some a /\ nth i folds O <> 1%nat).
Proof.
  intros H. rewrite (fold_split_ok folds l H). eexists; eexists; split; [reflexivity|].
  assert (H1 : length (map (fun f => f =? 1)%nat folds) = length l) by (rewrite map_length; exact H).
  split; [apply masks_perm; exact H1|]. split; intros a.
  - rewrite mask_in by exact H1. split; intros [i [E1 E2]]; exists i; (split; [exact E1|]).
    + assert (Hi : (i < length folds)%nat) by (rewrite H; apply nth_error_Some; congruence).
      rewrite (nth_map_in _ _ _ O) in E2 by exact Hi. apply Nat.eqb_eq. exact E2.
    + assert (Hi : (i < length folds)%nat) by (rewrite H; apply nth_error_Some; congruence).
      rewrite (nth_map_in _ _ _ O) by exact Hi. apply Nat.eqb_eq. exact E2.
  - rewrite map_map, mask_in by (rewrite map_length; exact H). split; intros [i [E1 E2]]; exists i; (split; [exact E1|]).
    + assert (Hi : (i < length folds)%nat) by (rewrite H; apply nth_error_Some; congruence).
      rewrite (nth_map_in _ _ _ O) in E2 by exact Hi. apply negb_true_iff, Nat.eqb_neq in E2. exact E2.
    + assert (Hi : (i < length folds)%nat) by (rewrite H; apply nth_error_Some; congruence).
      rewrite (nth_map_in _ _ _ O) by exact Hi. apply negb_true_iff, Nat.eqb_neq. exact E2.
Qed.
Lemma fold_split_pairs {A B} folds (l : list A) (r : list B) a b c d : fold_split folds l = Ok (a, b) -> fold_split folds r = Ok (c, d) ->
  fold_split folds (combine l r) = Ok (combine a c, combine b d) /\ length a = length c /\ length b = length d.
Proof.
  intros E1 E2.
  assert (H1 : length folds = length l).
  { unfold fold_split, take_mask in E1. rewrite map_length in E1. destruct (length folds =? length l)%nat eqn:Q; [apply Nat.eqb_eq; exact Q|discriminate]. }
  assert (H2 : length folds = length r).
  { unfold fold_split, take_mask in E2. rewrite map_length in E2. destruct (length folds =? length r)%nat eqn:Q; [apply Nat.eqb_eq; exact Q|discriminate]. }
  rewrite (fold_split_ok _ _ H1) in E1. rewrite (fold_split_ok _ _ H2) in E2. injection E1 as <- <-. injection E2 as <- <-.
  rewrite fold_split_ok by (rewrite combine_length; lia).
  rewrite !mask_combine by (rewrite ?map_length; assumption). split; [reflexivity|].
  assert (L : forall (m : list bool) (u : list A) (v : list B), length m = length u -> length m = length v ->
    length (map snd (filter fst (combine m u))) = length (map snd (filter fst (combine m v)))).
  { induction m as [|[] m IH]; intros [|x u] [|y v] Hu Hv; try discriminate; [reflexivity| |]; cbn; [f_equal|]; apply IH; injection Hu; injection Hv; auto. }
  split; apply L; rewrite ?map_length; assumption.
Qed.
Lemma fold_split_refused {A} folds (l : list A) : length folds <> length l -> fold_split folds l = Err IndexError.
Proof. intros H. unfold fold_split, take_mask. rewrite map_length. apply Nat.eqb_neq in H. rewrite H. reflexivity. Qed.

(** ** weights drawn as pictures *)
Lemma reshape_get v n m M i j : reshape v n m = Ok M -> (i < n)%nat -> (j < m)%nat -> mget M i j = get1 v (i * m + j).
Proof.
  unfold reshape. destruct (length v =? n * m)%nat; [|discriminate]. intros E Hi Hj. injection E as <-. apply mget_mtab; assumption.
Qed.
Lemma transitions_spec k F x w y : mat_ok x -> mcols x = F -> length w = (k * F + k * k)%nat -> labelling (mrows x) k y ->
  exists T psi, transition_parameters k F w = Ok T /\ g_joint_feature (GraphCRF k F true) (chain_x x) (Discrete y) = Ok psi /\
    dot w psi = sumn (mrows x) (fun i => unary_score F w (mget x i) (lab y i)) +
                sumn (mrows x - 1) (fun i => mget T (lab y i) (lab y (S i))).
Proof.
  intros HO HC HW HY. set (g := GraphCRF k F true).
  pose proof (chain_valid g x HO HC) as HX. destruct (g_feat_ok g [] (chain_x x) y HX HY) as [E _].
  pose proof (g_feat_score g [] (chain_x x) y w HX HW HY) as V.
  assert (HL : length (skipn (k * F) w) = (k * k)%nat) by (rewrite skipn_length, HW; lia).
  exists (mtab k k (fun i j => get1 (skipn (k * F) w) (i * k + j))), (t_feat (g_task g []) (chain_x x) y).
  split; [unfold transition_parameters; apply reshape_ok; exact HL|]. split; [exact E|]. rewrite V.
  unfold score, chain_x. cbn [gx_features gx_edges g g_features g_states g_directed]. rewrite make_chain_edges_chain.
  f_equal. assert (LE : length (chain_edges (mrows x)) = (mrows x - 1)%nat) by (unfold chain_edges; rewrite map_length, seq_length; reflexivity).
  rewrite LE. apply sumn_ext. intros i Hi. rewrite chain_edges_nth by exact Hi. cbn [fst snd pair_score].
  destruct HY as [HY1 HY2].
  rewrite mget_mtab by (apply (Forall_nth_lt _ _ _ _ HY2); lia). rewrite get1_skipn. reflexivity.
Qed.
Lemma transitions_refused k F w : length w <> (k * F + k * k)%nat -> (0 < k)%nat -> transition_parameters k F w = Err ValueError.
Proof.
  intros H Hk. unfold transition_parameters. apply reshape_err. rewrite skipn_length. intros Q. apply H.
  assert (0 < k * k)%nat by (apply Nat.mul_pos_pos; exact Hk). lia.
Qed.
Lemma weight_plots_spec x w y es : make_grid_edges (gr_h x) (gr_w x) 4 = Ok es -> length (gr_data x) = (gr_h x * gr_w x * 3)%nat ->
  length w = 27%nat -> labelling (gr_h x * gr_w x) 3 y ->
  exists W0 W1 W2 psi, weight_plot 3 w 0 = Ok W0 /\ weight_plot 3 w 1 = Ok W1 /\ weight_plot 3 w 2 = Ok W2 /\
    dir_joint_feature (GridCRF 3 3 4) x (EDiscrete y) = Ok psi /\
    dot w psi = sumn (gr_h x * gr_w x) (fun i => sumn 3 (fun f => mget W0 (lab y i) f * get1 (gr_data x) (i * 3 + f))) +
      sumn (length es) (fun e => let '(a, b) := nth e es (0, 0)%nat in
        mget (if (row_dist (gr_w x) a b =? 0)%nat then W1 else W2) (lab y a) (lab y b)).
Proof.
  intros HE HD HW HY.
  destruct (directional_4_score 3 3 x w y es HE ltac:(lia) HD HW HY) as [U [P [psi [_ [_ [EJ [_ [_ V]]]]]]]].
  assert (HP : forall p, (p < 3)%nat -> exists W, weight_plot 3 w p = Ok W /\ forall s t, (s < 3)%nat -> (t < 3)%nat -> mget W s t = get1 w (p * 9 + (s * 3 + t))).
  { intros p Hp. unfold weight_plot. rewrite HW. change (27 =? 3 * (3 * 3))%nat with true. cbv beta iota.
    assert (HL : length (firstn (3 * 3) (skipn (p * (3 * 3)) w)) = (3 * 3)%nat) by (rewrite firstn_length, skipn_length, HW; lia).
    rewrite (reshape_ok _ 3 3 HL). eexists. split; [reflexivity|]. intros s t Hs Ht.
    rewrite mget_mtab by assumption. rewrite get1_firstn by lia. rewrite get1_skipn. reflexivity. }
  destruct (HP 0%nat ltac:(lia)) as [W0 [E0 V0]]. destruct (HP 1%nat ltac:(lia)) as [W1 [E1 V1]]. destruct (HP 2%nat ltac:(lia)) as [W2 [E2 V2]].
  exists W0, W1, W2, psi. split; [exact E0|]. split; [exact E1|]. split; [exact E2|]. split; [exact EJ|]. rewrite V. clear V.
  destruct HY as [HY1 HY2]. unfold score. f_equal.
  - apply sumn_ext. intros i Hi. unfold unary_score. apply sumn_ext. intros f Hf. rewrite V0; [reflexivity| |exact Hf].
    apply (Forall_nth_lt _ _ _ _ HY2). rewrite HY1. exact Hi.
  - apply sumn_ext. intros e He.
    assert (HB : (fst (nth e es (0, 0)%nat) < gr_h x * gr_w x)%nat /\ (snd (nth e es (0, 0)%nat) < gr_h x * gr_w x)%nat).
    { pose proof (grid_edges_sound _ _ _ _ HE) as HG. unfold graph_edges in HG. rewrite Forall_forall in HG. apply HG, nth_In. exact He. }
    destruct (nth e es (0, 0)%nat) as [a b]. cbn [fst snd] in *. unfold edge_weight.
    assert (lab y a < 3)%nat by (apply (Forall_nth_lt _ _ _ _ HY2); lia).
    assert (lab y b < 3)%nat by (apply (Forall_nth_lt _ _ _ _ HY2); lia).
    destruct (row_dist (gr_w x) a b =? 0)%nat.
    + rewrite V1 by assumption. f_equal; lia.
    + rewrite V2 by assumption. f_equal; lia.
Qed.

(** C53: the constructors and [initialize] of the models. *)
From Coq Require Import ZArith.
From Verif Require Import Model.Initialize Model.Loss Model.Unstructured Model.GraphCRF Model.EdgeFeature Model.Grid Model.MultiLabel
  Model.LatentGraph Model.LatentNode Proofs.InitializeProofs Proofs.UnstructuredProofs2 Proofs.LossProofs.

(** ** what is counted *)
(** n_unique is the number of different labels in Y; an empty Y is an error *)
Theorem C53_counts_distinct_labels : forall (Ys : list (list Z)) k,
  n_unique Ys = Ok k <-> Ys <> [] /\ exists d, NoDup d /\ length d = k /\ forall x, In x d <-> In x (concat Ys).
Proof. exact n_unique_spec. Qed.
(** a fresh GraphCRF, GridCRF or ChainCRF takes the numbers from the data, and one class weight per
    state *)
Theorem C53_fresh : forall directed x Xs Ys k,
  n_unique Ys = Ok k ->
  graph_initialize directed (x :: Xs) Ys (fst (construct (graph_sizer directed) None None None)) =
  (Attrs (Some k) (Some (mcols x)) (Some (g_size (GraphCRF k (mcols x) directed))) (Some (repeat 1 k)) (Some true), None).
Proof.
  intros directed x Xs Ys k H. unfold graph_initialize. rewrite H. cbn [first_cols construct finish set_size graph_sizer both set_class_weight a_things a_features a_size fst].
  exact (initialize_ok (graph_sizer directed) (mcols x) k _ (Attrs None None None None None) eq_refl (or_introl eq_refl) (or_introl eq_refl) ltac:(intros c C; discriminate C)).
Qed.
(** in general: success exactly if no declared number contradicts the data, and then the attributes
    are those of the data.  [sz] is the size formula of the class. *)
Theorem C53_accepts : forall sz nf nt d a, sz (Some nt) (Some nf) = (Some d, None) ->
  (snd (initialize sz (Ok nf) (Ok nt) a) = None <->
     (a_features a = None \/ a_features a = Some nf) /\ (a_things a = None \/ a_things a = Some nt) /\
     (forall c, a_cw a = Some c -> length c = nt)) /\
  (snd (initialize sz (Ok nf) (Ok nt) a) = None ->
     fst (initialize sz (Ok nf) (Ok nt) a) =
     Attrs (Some nt) (Some nf) (Some d) (Some (match a_cw a with Some c => c | None => repeat 1 nt end))
       (Some (match a_cw a with Some _ => false | None => true end))).
Proof.
  intros sz nf nt d a S. split; [exact (initialize_iff sz nf nt d a S)|]. intro H. apply (initialize_iff sz nf nt d a S) in H. destruct H as [F [T C]].
  rewrite (initialize_ok sz nf nt d a S F T C). reflexivity.
Qed.
(** the sizes agree with the ones the other methods use *)
Theorem C53_sizes : forall S F,
  (forall directed, graph_sizer directed (Some S) (Some F) = (Some (g_size (GraphCRF S F directed)), None)) /\
  (forall cw u r, mc_sizer (Some S) (Some F) = (Some (mc_size (MC S F cw u r)), None)) /\
  (forall ne sym anti, ef_check_declared (EFCRF S F ne sym anti) = Ok tt -> ef_sizer (Some ne) sym anti (Some S) (Some F) = (Some (ef_size (EFCRF S F ne sym anti)), None)) /\
  (forall ne sym anti e, ef_check_declared (EFCRF S F ne sym anti) = Err e -> snd (ef_sizer (Some ne) sym anti (Some S) (Some F)) = Some e) /\
  (forall edges, ml_sizer (length edges) (Some S) (Some F) = (Some (ml_size (ML S F edges)), None)) /\
  (forall hidden nodef cw, ln_sizer hidden nodef (Some S) (Some F) = (Some (ln_size (LNCRF S hidden F nodef cw)), None)) /\
  (forall hidden nodef cw ne sym anti, el_sizer hidden ne nodef (Some S) (Some F) = (Some (el_size (ELCRF (LNCRF S hidden F nodef cw) ne sym anti)), None)) /\
  (forall hood, dgrid_sizer (ef_edge_features (dir_efcrf (GridCRF S F hood))) (Some S) (Some F) = (Some (dir_size (GridCRF S F hood)), None)).
Proof. exact sizes_agree. Qed.

(** ... for the classes: after initialize, size_joint_feature is the size of the data's model *)
Theorem C53_class_sizes : forall a a',
  (forall edges X L, ml_initialize (length edges) X L a = (a', None) -> a_size a' = Some (ml_size (ML L (mcols X) edges))) /\
  (forall X Y k cw u r, mc_initialize X Y a = (a', None) -> n_unique (map (fun y => [y]) Y) = Ok k -> a_size a' = Some (mc_size (MC k (mcols X) cw u r))) /\
  (forall sym anti ne ne' Xs x Ys E k, ef_initialize sym anti (Ok E) (x :: Xs) Ys ne a = (ne', (a', None)) -> n_unique Ys = Ok k ->
     ne' = Some E /\ a_size a' = Some (ef_size (EFCRF k (mcols x) E sym anti))).
Proof. exact class_sizes. Qed.

(** ** labels that are not 0, ..., k-1 *)
(** every label is a state exactly if the labels are 0, ..., k-1 *)
Theorem C53_labels_valid_iff : forall (Ys : list (list Z)) k, n_unique Ys = Ok k ->
  ((forall x, In x (concat Ys) -> (0 <= x < Z.of_nat k)%Z) <-> (forall x, In x (concat Ys) <-> (0 <= x < Z.of_nat k)%Z)).
Proof.
  intros Ys k H. unfold n_unique in H. destruct Ys as [|y Ys]; [discriminate H|]. injection H as <-. exact (labels_valid_iff (concat (y :: Ys))).
Qed.
(** otherwise initialize still succeeds, and the loss of such a labelling raises IndexError *)
Theorem C53_gap_accepted : forall directed Xs (Ys : list (list nat)) a a' y y' l k,
  n_unique (map (map Z.of_nat) Ys) = Ok k ->
  graph_initialize directed Xs (map (map Z.of_nat) Ys) a = (a', None) -> In y Ys -> In l y -> (k <= l)%nat ->
  a_things a' = Some k /\ exists c, a_cw a' = Some c /\ loss (Some c) y y' = Err IndexError /\ max_loss (Some c) y = Err IndexError.
Proof. exact gap_breaks_loss. Qed.
(** a declared n_states is an exact count: data in which a class does not occur is rejected *)
Theorem C53_missing_class_rejected : forall directed x Xs Ys S k, n_unique Ys = Ok k -> (k < S)%nat ->
  graph_initialize directed (x :: Xs) Ys (fst (construct (graph_sizer directed) (Some S) None None)) =
  (Attrs (Some S) (Some (mcols x)) None None None, Some ValueError).
Proof.
  intros directed x Xs Ys S k H L. unfold graph_initialize. rewrite H.
  apply (initialize_bad_things (graph_sizer directed) (mcols x) k S); [left; reflexivity|reflexivity|lia].
Qed.

(** ** only the first sample is inspected *)
Theorem C53_first_sample_only : forall directed x Xs Xs' Ys a,
  graph_initialize directed (x :: Xs) Ys a = graph_initialize directed (x :: Xs') Ys a.
Proof. reflexivity. Qed.
Theorem C53_empty : forall directed Xs Ys a,
  graph_initialize directed [] Ys a = (a, Some IndexError) /\
  snd (graph_initialize directed Xs [] a) <> None.
Proof.
  intros directed Xs Ys a. split; [reflexivity|]. unfold graph_initialize. destruct Xs as [|x Xs]; cbn [first_cols]; [discriminate|].
  unfold initialize. destruct (match a_features a with Some f => (f =? mcols x)%nat | None => true end); discriminate.
Qed.

(** ** calling it again *)
(** on the same data: everything stays, except that uniform_class_weight becomes False *)
Theorem C53_again : forall sz nf nt d a a', sz (Some nt) (Some nf) = (Some d, None) ->
  initialize sz (Ok nf) (Ok nt) a = (a', None) ->
  initialize sz (Ok nf) (Ok nt) a' = (Attrs (a_things a') (a_features a') (a_size a') (a_cw a') (Some false), None).
Proof. exact initialize_again. Qed.
(** so a second call is not without effect *)
Theorem C53_noop_refuted : forall directed x Xs Ys k, n_unique Ys = Ok k ->
  let a := fst (graph_initialize directed (x :: Xs) Ys (fst (construct (graph_sizer directed) None None None))) in
  fst (graph_initialize directed (x :: Xs) Ys a) <> a /\ a_uniform a = Some true /\ a_uniform (fst (graph_initialize directed (x :: Xs) Ys a)) = Some false.
Proof.
  intros directed x Xs Ys k H a. assert (A : a = Attrs (Some k) (Some (mcols x)) (Some (g_size (GraphCRF k (mcols x) directed))) (Some (repeat 1 k)) (Some true)).
  { unfold a. rewrite (C53_fresh directed x Xs Ys k H). reflexivity. }
  assert (B : fst (graph_initialize directed (x :: Xs) Ys a) = Attrs (Some k) (Some (mcols x)) (Some (g_size (GraphCRF k (mcols x) directed))) (Some (repeat 1 k)) (Some false)).
  { unfold graph_initialize. rewrite H. cbn [first_cols]. rewrite (initialize_again (graph_sizer directed) (mcols x) k _ (fst (construct (graph_sizer directed) None None None)) a eq_refl).
    - rewrite A. reflexivity.
    - rewrite A. pose proof (C53_fresh directed x Xs Ys k H) as Q. unfold graph_initialize in Q. rewrite H in Q. exact Q. }
  rewrite B, A. split; [intro Q; apply (f_equal a_uniform) in Q; discriminate Q|]. split; reflexivity.
Qed.
(** the flag is only read by MultiClassClf, where it makes no difference *)
Theorem C53_uniform_flag_harmless : forall S F r X Y w, mat_ok X -> mcols X = F -> length w = (S * F)%nat -> length Y = mrows X ->
  Forall (fun y => (y < S)%nat) Y -> (0 < S)%nat ->
  mc_batch_laug (MC S F (repeat 1 S) true r) X Y w = mc_batch_laug (MC S F (repeat 1 S) false r) X Y w.
Proof. exact uniform_harmless. Qed.
(** sizes given to the constructor: initialize turns the flag off although no class_weight was given *)
Theorem C53_declared_sizes_not_uniform : forall directed S F x Xs Ys, n_unique Ys = Ok S -> mcols x = F ->
  let a := fst (construct (graph_sizer directed) (Some S) (Some F) None) in
  a_uniform a = Some true /\ a_uniform (fst (graph_initialize directed (x :: Xs) Ys a)) = Some false /\
  snd (graph_initialize directed (x :: Xs) Ys a) = None.
Proof.
  intros directed S F x Xs Ys H E a. split; [reflexivity|]. unfold graph_initialize. rewrite H. cbn [first_cols]. rewrite E.
  rewrite (initialize_ok (graph_sizer directed) F S _ a eq_refl); [split; reflexivity|right; reflexivity|right; reflexivity|].
  intros c C. unfold a in C. cbn in C. injection C as <-. apply repeat_length.
Qed.
(** on other data: only if it has as many features and as many different labels *)
Theorem C53_other_data : forall sz nf nt nf' nt' d d' a a', sz (Some nt) (Some nf) = (Some d, None) -> sz (Some nt') (Some nf') = (Some d', None) ->
  initialize sz (Ok nf) (Ok nt) a = (a', None) ->
  (snd (initialize sz (Ok nf') (Ok nt') a') = None <-> nf' = nf /\ nt' = nt).
Proof. exact initialize_other. Qed.

(** ** failures change the model *)
(** a wrong number of labels is noticed after n_features has been stored: data with the right labels
    and another number of features is then rejected too *)
Theorem C53_failure_sticks : forall directed S x Xs Ys k x' Xs' Ys', n_unique Ys = Ok k -> k <> S -> n_unique Ys' = Ok S -> mcols x' <> mcols x ->
  let fresh := fst (construct (graph_sizer directed) (Some S) None None) in
  let a := fst (graph_initialize directed (x :: Xs) Ys fresh) in
  snd (graph_initialize directed (x :: Xs) Ys fresh) = Some ValueError /\ a_features a = Some (mcols x) /\
  snd (graph_initialize directed (x' :: Xs') Ys' fresh) = None /\
  snd (graph_initialize directed (x' :: Xs') Ys' a) = Some ValueError.
Proof.
  intros directed S x Xs Ys k x' Xs' Ys' H N H' NF fresh a. unfold a, graph_initialize. rewrite H, H'. cbn [first_cols].
  rewrite (initialize_bad_things (graph_sizer directed) (mcols x) k S fresh); [|left; reflexivity|reflexivity|congruence]. cbn [fst snd].
  split; [reflexivity|]. split; [reflexivity|]. split.
  - apply (initialize_iff (graph_sizer directed) (mcols x') S _ fresh eq_refl). split; [left; reflexivity|]. split; [right; reflexivity|]. intros c C. discriminate C.
  - rewrite (initialize_bad_features (graph_sizer directed) (mcols x') (Ok S) (mcols x)); [reflexivity|reflexivity|congruence].
Qed.
(** class weights of the wrong length are noticed last *)
Theorem C53_class_weight_length : forall directed x Xs Ys k c, n_unique Ys = Ok k -> length c <> k ->
  graph_initialize directed (x :: Xs) Ys (fst (construct (graph_sizer directed) None None (Some c))) =
  (Attrs (Some k) (Some (mcols x)) (Some (g_size (GraphCRF k (mcols x) directed))) (Some c) None, Some ValueError).
Proof.
  intros directed x Xs Ys k c H N. unfold graph_initialize. rewrite H.
  exact (initialize_bad_cw (graph_sizer directed) (mcols x) k _ (Attrs None None None (Some c) None) c eq_refl (or_introl eq_refl) (or_introl eq_refl) eq_refl N).
Qed.

(** ** other classes *)
(** MultiLabelClf(n_features=f) without n_labels cannot be constructed *)
Theorem C53_multilabel_constructor : forall n_edges f cw,
  snd (construct (ml_sizer n_edges) None (Some f) cw) = Some TypeError /\
  (forall l, snd (construct (ml_sizer n_edges) (Some l) None None) = None /\ snd (construct (ml_sizer n_edges) (Some l) (Some f) None) = None) /\
  snd (construct (ml_sizer n_edges) None None None) = None.
Proof. intros n_edges f cw. repeat split. Qed.
(** EdgeFeatureGraphCRF: declared (anti)symmetric features must exist in the data *)
Theorem C53_edge_features : forall sym anti ke x Xs Ys k ne,
  n_unique Ys = Ok k -> (ne = None \/ ne = Some ke) ->
  let r := ef_initialize sym anti (Ok ke) (x :: Xs) Ys ne (Attrs None None None None None) in
  fst r = Some ke /\
  (snd (snd r) = None <-> (forall i, In i (sym ++ anti) -> (i < ke)%nat) /\ (forall i, In i sym -> ~ In i anti)) /\
  (snd (snd r) = None -> a_size (fst (snd r)) = Some (ef_size (EFCRF k (mcols x) ke sym anti))).
Proof. exact ef_initialize_spec. Qed.
Theorem C53_edge_features_mismatch : forall sym anti ke e Xs Ys a, e <> ke ->
  ef_initialize sym anti (Ok ke) Xs Ys (Some e) a = (Some e, (a, Some ValueError)).
Proof. intros sym anti ke e Xs Ys a N. unfold ef_initialize. apply Nat.eqb_neq in N. rewrite N. reflexivity. Qed.
(** BinaryClf *)
Theorem C53_binary : forall X size, bc_initialize X size =
  match size with None => (Some (mcols X), None) | Some s => (Some s, if (s =? mcols X)%nat then None else Some ValueError) end.
Proof. intros X [s|]; [|reflexivity]. unfold bc_initialize. destruct (s =? mcols X)%nat; reflexivity. Qed.
(** LatentGraphCRF: a list of state counts needs one entry per label found in the data *)
Theorem C53_latent_states : forall (spl : list nat) nf nt,
  (snd (initialize (lg_sizer (inr spl)) (Ok nf) (Ok nt) (Attrs None None None None None)) = None <-> length spl = nt) /\
  (forall k, snd (initialize (lg_sizer (inl k)) (Ok nf) (Ok nt) (Attrs None None None None None)) = None).
Proof.
  intros spl nf nt. split; [|reflexivity]. unfold initialize, finish, set_size, lg_sizer.
  cbn [a_things a_features set_things set_features]. destruct (Nat.eqb_spec (length spl) nt) as [E|E].
  - split; [intros _; exact E|reflexivity].
  - split; [discriminate|contradiction].
Qed.

(** ** Examples *)
Definition ex20_x : mat := Mat 3 2 [[1; 0]; [0; 1]; [1; 1]].
Example C53_example :
  n_unique [[0; 1; 1]; [2; 0]]%Z = Ok 3%nat /\
  (let r := graph_initialize false [ex20_x; ex20_x] [[0; 1; 1]; [2; 0; 0]]%Z (Attrs None None None None None) in
   a_things (fst r) = Some 3%nat /\ a_features (fst r) = Some 2%nat /\ a_size (fst r) = Some 12%nat /\ snd r = None) /\
  (* labels 0 and 2: two states *)
  (let r := graph_initialize false [ex20_x] [[0; 2; 2]]%Z (Attrs None None None None None) in
   a_things (fst r) = Some 2%nat /\ snd r = None) /\
  loss (Some [1; 1]) [0; 2; 2]%nat [0; 0; 0]%nat = Err IndexError /\
  snd (graph_initialize false [ex20_x] [[0; 1; 1]]%Z (Attrs (Some 3%nat) None None None None)) = Some ValueError.
Proof. repeat split. Qed.
Print Assumptions C53_counts_distinct_labels.
Print Assumptions C53_fresh.
Print Assumptions C53_accepts.
Print Assumptions C53_sizes.
Print Assumptions C53_class_sizes.
Print Assumptions C53_labels_valid_iff.
Print Assumptions C53_gap_accepted.
Print Assumptions C53_missing_class_rejected.
Print Assumptions C53_first_sample_only.
Print Assumptions C53_empty.
Print Assumptions C53_again.
Print Assumptions C53_noop_refuted.
Print Assumptions C53_uniform_flag_harmless.
Print Assumptions C53_declared_sizes_not_uniform.
Print Assumptions C53_other_data.
Print Assumptions C53_failure_sticks.
Print Assumptions C53_class_weight_length.
Print Assumptions C53_multilabel_constructor.
Print Assumptions C53_edge_features.
Print Assumptions C53_edge_features_mismatch.
Print Assumptions C53_binary.
Print Assumptions C53_latent_states.

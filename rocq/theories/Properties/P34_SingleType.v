(** C73: NodeTypeEdgeFeatureGraphCRF with one node type is EdgeFeatureGraphCRF. *)
From Coq Require Import ZArith String.
From Verif Require Import Spec.SingleTypeSpec Spec.AlikeSpec Model.Convert Model.Instances Proofs.SingleType Proofs.SingleType2 Proofs.SingleTypeExamples.

(** The constructor with n_types=1 gives [one_type]; both classes have the same number of weights. *)
Theorem C73_constructor k nf ne method cw : (method = "ad3" \/ method = "ad3+")%string ->
  (length cw = k -> ty_setup 1 [k] [nf] [[ne]] method (Some [cw]) = Ok (one_type (EFCRF k nf ne [] []) cw method false)) /\
  ty_setup 1 [k] [nf] [[ne]] method None = Ok (one_type (EFCRF k nf ne [] []) (repeat 1 k) method false).
Proof. exact (setup_one k nf ne method cw). Qed.
Theorem C73_size g cw method exc : ty_size (one_type g cw method exc) = ef_size g.
Proof. destruct g as [k nf ne sy an]. exact (size_same k nf ne cw method exc). Qed.

(** The typed class accepts what the other accepts, if moreover all edges join existing nodes; it raises ValueError otherwise. *)
Theorem C73_accepted g cw method exc x : plain g ->
  (ty_check_x (one_type g cw method exc) (convert_single x) = Ok tt <-> ef_check_x g x = Ok tt /\ edges_exist x) /\
  (ty_check_x (one_type g cw method exc) (convert_single x) = Ok tt \/ ty_check_x (one_type g cw method exc) (convert_single x) = Err ValueError).
Proof. destruct g as [k nf ne sy an]. intros [E1 E2]. cbn in E1, E2. subst sy an. split; [exact (check_iff k nf ne cw method exc x)|exact (check_fails k nf ne cw method exc x)]. Qed.
(** Such an edge passes EdgeFeatureGraphCRF when the labelling is relaxed, and is refused by the typed class. *)
Theorem C73_missing_node_refuted g cw method exc x um pm : plain g -> ef_check_x g x = Ok tt -> ~ edges_exist x ->
  mat_ok um -> mrows um = mrows (ex_features x) -> mcols um = ef_states g -> mrows pm = length (ex_edges x) ->
  (exists f, ef_joint_feature g x (ERelaxed (ravel um) pm) = Ok f) /\
  ty_joint_feature (one_type g cw method exc) (convert_single x) (TRelaxed (MList [um]) (MList [pm])) = Err ValueError.
Proof.
  destruct g as [k nf ne sy an]. intros [E1 E2]. cbn in E1, E2. subst sy an. intros C N O R K P.
  split; [exact (missing_relaxed k nf ne x um pm C O R K P)|exact (missing_node k nf ne cw method exc x _ N)].
Qed.

(** Joint features of integer and of relaxed labellings: the same vector, or the same exception. *)
Theorem C73_joint_feature g cw method exc x y : plain g -> edges_exist x -> labels_ok g x y ->
  ty_joint_feature (one_type g cw method exc) (convert_single x) (TDiscrete (map Z.of_nat y)) = ef_joint_feature g x (EDiscrete y).
Proof. destruct g as [k nf ne sy an]. intros [E1 E2]. cbn in E1, E2. subst sy an. exact (joint_one k nf ne cw method exc x y). Qed.
Theorem C73_joint_feature_relaxed g cw method exc x um pm : plain g -> edges_exist x -> mat_ok um -> mrows um = mrows (ex_features x) -> mcols um = ef_states g ->
  ty_joint_feature (one_type g cw method exc) (convert_single x) (TRelaxed (MList [um]) (MList [pm])) = ef_joint_feature g x (ERelaxed (ravel um) pm).
Proof. destruct g as [k nf ne sy an]. intros [E1 E2]. cbn in E1, E2. subst sy an. exact (joint_relaxed_one k nf ne cw method exc x um pm). Qed.
(** A label that is too large: InconsistentLabel in one class, IndexError in the other. *)
Theorem C73_bad_label g cw method exc x y : plain g -> ef_check_x g x = Ok tt -> edges_exist x -> length y = mrows (ex_features x) ->
  ~ Forall (fun s => (s < ef_states g)%nat) y ->
  ty_joint_feature (one_type g cw method exc) (convert_single x) (TDiscrete (map Z.of_nat y)) = Err InconsistentLabel /\
  ef_joint_feature g x (EDiscrete y) = Err IndexError.
Proof. destruct g as [k nf ne sy an]. intros [E1 E2]. cbn in E1, E2. subst sy an. exact (bad_label k nf ne cw method exc x y). Qed.

(** Potentials, and the loss-augmented ones. *)
Theorem C73_potentials g cw method exc x w : plain g -> ef_check_x g x = Ok tt -> (0 < ef_states g)%nat -> (0 < ef_edge_features g)%nat ->
  ty_unary (one_type g cw method exc) (convert_single x) w = (let! U := ef_unary g x w in Ok [U]) /\
  ty_pairwise (one_type g cw method exc) (convert_single x) w = (let! P := ef_pairwise g x w in Ok [P]).
Proof.
  destruct g as [k nf ne sy an]. intros [E1 E2]. cbn in E1, E2. subst sy an. intros C Hk Hne.
  split; [exact (unary_one k nf ne cw method exc x w C)|exact (pairwise_one k nf ne cw method exc x w C Hk Hne)].
Qed.
Theorem C73_loss_augment g cw method exc U y : length y = mrows U ->
  ty_loss_augment (one_type g cw method exc) [U] (map Z.of_nat y) = (let! U' := loss_augment_unaries U y cw in Ok [U']).
Proof. exact (laug_one (ef_states g) (ef_features g) (ef_edge_features g) cw method exc U y). Qed.
(** Without edge features the typed class has empty pairwise potentials, the other cannot do inference. *)
Theorem C73_no_edge_features_refuted g cw method exc x w : plain g -> ef_check_x g x = Ok tt -> length w = ef_size g -> ef_edge_features g = O ->
  ty_pairwise (one_type g cw method exc) (convert_single x) w = Ok [Pw3 0 0 0 []] /\ ef_pairwise g x w = Err ValueError.
Proof. destruct g as [k nf ne sy an]. intros [E1 E2]. cbn in E1, E2. subst sy an. exact (pairwise_none k nf ne cw method exc x w). Qed.

(** The dispatcher on a list with one graph, with 'ad3' and 'ad3+', any options except inference_exception. *)
Theorem C73_dispatch b method return_energy kw U es t : (method = "ad3" \/ method = "ad3+")%string ->
  (forall lib, b_ad3 b = Some lib -> one_graph_lib lib) -> truthy (kw_default kw "inference_exception"%string VNone) = false ->
  inference_dispatch b (Multi [U] [Pw3 (length es) (mcols U) (mcols U) t] [es]) (Name method) return_energy kw =
  (let! r := inference_dispatch b (Single U (Pw3 (length es) (mcols U) (mcols U) t) es) (Name method) return_energy kw in Ok (as_list (fst r), snd r)).
Proof. exact (dispatch_one b method return_energy kw U es t). Qed.
(** With inference_exception=True, 'ad3' raises for the list and silently rounds for the graph itself. *)
Theorem C73_exception_refuted b lib return_energy kw U es t um pm e st : b_ad3 b = Some lib -> one_graph_lib lib ->
  truthy (kw_default kw "inference_exception"%string VNone) = true -> truthy (kw_default kw "relaxed"%string (VBool false)) = false ->
  check_call ("return_energy" :: positional)%string ["relaxed"; "verbose"; "branch_and_bound"; "inference_exception"]%string false kw = Ok tt ->
  ad3_graph lib U es t (kw_default kw "branch_and_bound"%string (VBool false)) = Ok (um, pm, e, st) -> not_integral st = true ->
  inference_dispatch b (Multi [U] [Pw3 (length es) (mcols U) (mcols U) t] [es]) (Name "ad3") return_energy kw = Err InferenceException /\
  inference_dispatch b (Single U (Pw3 (length es) (mcols U) (mcols U) t) es) (Name "ad3") return_energy kw =
    (let! y := argmax_rows um in Ok (RLabels y, if return_energy then Some (- e) else None)).
Proof. exact (exception_one b lib return_energy kw U es t um pm e st). Qed.

(** inference and loss_augmented_inference, relaxed or not. *)
Theorem C73_inference b g cw method exc x w relaxed : plain g -> (method = "ad3" \/ method = "ad3+")%string ->
  (forall lib, b_ad3 b = Some lib -> one_graph_lib lib) -> ef_check_x g x = Ok tt -> (0 < ef_states g)%nat -> (0 < ef_edge_features g)%nat ->
  ty_inference b (one_type g cw method exc) (convert_single x) w relaxed [] =
  (let! _ := check_size_w (ef_size g) w in
   let! U := ef_unary g x w in
   let! P := ef_pairwise g x w in
   let! r := inference_dispatch b (Single U P (ex_edges x)) (Name method) false [("relaxed"%string, VBool relaxed)] in
   Ok (as_list (fst r))).
Proof. destruct g as [k nf ne sy an]. intros [E1 E2]. cbn in E1, E2. subst sy an. intros HM HL C Hk Hne. exact (inference_one k nf ne cw method exc b HM HL x C Hk Hne w relaxed). Qed.
Theorem C73_loss_augmented_inference b g cw method exc x y w relaxed : plain g -> (method = "ad3" \/ method = "ad3+")%string ->
  (forall lib, b_ad3 b = Some lib -> one_graph_lib lib) -> ef_check_x g x = Ok tt -> (0 < ef_states g)%nat -> (0 < ef_edge_features g)%nat -> labels_ok g x y ->
  ty_loss_augmented_inference b (one_type g cw method exc) (convert_single x) (map Z.of_nat y) w relaxed =
  (let! _ := check_size_w (ef_size g) w in
   let! U := ef_unary g x w in
   let! P := ef_pairwise g x w in
   let! U' := loss_augment_unaries U y cw in
   let! r := inference_dispatch b (Single U' P (ex_edges x)) (Name method) false [("relaxed"%string, VBool relaxed)] in
   Ok (as_list (fst r))).
Proof. destruct g as [k nf ne sy an]. intros [E1 E2]. cbn in E1, E2. subst sy an. intros HM HL C Hk Hne. exact (laug_inference_one k nf ne cw method exc b HM HL x C Hk Hne y w relaxed). Qed.

(** As seen by the learners, the two models cannot be told apart. *)
Theorem C73_alike b g cw method exc S : plain g -> (method = "ad3" \/ method = "ad3+")%string -> (forall lib, b_ad3 b = Some lib -> one_graph_lib lib) ->
  (0 < ef_states g)%nat -> (0 < ef_edge_features g)%nat ->
  Forall (fun p => ef_check_x g (fst p) = Ok tt /\ edges_exist (fst p) /\ labels_ok g (fst p) (snd p)) S ->
  alike_samples (ef_smodel (dispatch_solver b method) g cw) (ty_smodel b (one_type g cw method exc)) S (map (fun p => (convert_single (fst p), snd p)) S).
Proof. destruct g as [k nf ne sy an]. intros [E1 E2]. cbn in E1, E2. subst sy an. exact (alike_all b k nf ne cw method exc S). Qed.

Example C73_hypotheses_met : plain ex34_g /\ (forall lib, b_ad3 ex34_b = Some lib -> one_graph_lib lib) /\
  Forall (fun p => ef_check_x ex34_g (fst p) = Ok tt /\ edges_exist (fst p) /\ labels_ok ex34_g (fst p) (snd p)) ex34_S.
Proof. split; [split; reflexivity|split; [|exact ex34_fits]]. intros lib E. injection E as <-. exact ex34_lib_ok. Qed.
Example C73_computed :
  match ty_joint_feature (one_type ex34_g [1; 1] "ad3" false) (convert_single ex34_x2) (TDiscrete [1; 0; 1]%Z) with
  | Ok f => map this f = [0; 1; -1; 1;  0; 0; 1; 0;  0; 0; 7; 0]%Q
  | Err _ => False
  end.
Proof. vm_compute. reflexivity. Qed.
Print Assumptions C73_constructor.
Print Assumptions C73_size.
Print Assumptions C73_accepted.
Print Assumptions C73_missing_node_refuted.
Print Assumptions C73_joint_feature.
Print Assumptions C73_joint_feature_relaxed.
Print Assumptions C73_bad_label.
Print Assumptions C73_potentials.
Print Assumptions C73_loss_augment.
Print Assumptions C73_no_edge_features_refuted.
Print Assumptions C73_dispatch.
Print Assumptions C73_exception_refuted.
Print Assumptions C73_inference.
Print Assumptions C73_loss_augmented_inference.
Print Assumptions C73_alike.

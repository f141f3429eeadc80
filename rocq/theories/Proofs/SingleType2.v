From Coq Require Import ZArith String Lia.
From Verif Require Import Proofs.Arrays Spec.SingleTypeSpec Spec.AlikeSpec Spec.Energy Model.Convert Model.Instances Proofs.LossProofs
  Proofs.InferenceProofs Proofs.SingleType.
#[local] Open Scope nat_scope.

Lemma decode_one um : decode_types [um] = argmax_rows um.
Proof.
  unfold decode_types. cbn [decode_from]. destruct (argmax_rows um) as [y|]; [|reflexivity]. cbn [bind].
  rewrite app_nil_r. f_equal. rewrite <- (map_id y) at 2. apply map_ext. reflexivity.
Qed.
Lemma answer_one um pm e st relaxed exc : (exc && not_integral st && negb relaxed)%bool = false ->
  multi_answer ([um], [pm], e, st) relaxed exc = (let! r := single_answer (um, pm, e, st) relaxed None in Ok (as_list (fst r), snd r)).
Proof.
  intro H. unfold multi_answer, single_answer. destruct (not_integral st); cbn [andb] in *.
  - destruct relaxed; cbn [negb] in *; [reflexivity|]. rewrite !andb_true_r in H. subst exc. cbn [andb negb ensure bind]. rewrite decode_one.
    destruct (argmax_rows um); reflexivity.
  - rewrite andb_false_r. cbn [negb ensure bind]. rewrite decode_one. destruct (argmax_rows um); reflexivity.
Qed.
Lemma answer_shape um pm e st relaxed : mat_ok um ->
  single_answer (um, pm, e, st) relaxed (Some (mrows um, mcols um)) = single_answer (um, pm, e, st) relaxed None.
Proof.
  intro H. unfold single_answer. destruct (not_integral st && relaxed)%bool; [|reflexivity]. rewrite (reshape_same um H). reflexivity.
Qed.

Lemma dispatch_one b meth re kw U es t : (meth = "ad3" \/ meth = "ad3+")%string ->
  (forall lib, b_ad3 b = Some lib -> one_graph_lib lib) ->
  truthy (kw_default kw "inference_exception"%string VNone) = false ->
  inference_dispatch b (Multi [U] [Pw3 (length es) (mcols U) (mcols U) t] [es]) (Name meth) re kw =
  (let! r := inference_dispatch b (Single U (Pw3 (length es) (mcols U) (mcols U) t) es) (Name meth) re kw in Ok (as_list (fst r), snd r)).
Proof.
  intros HM HL HX. unfold inference_dispatch, dispatch_name.
  destruct HM as [-> | ->].
  - cbn [String.eqb Ascii.eqb Bool.eqb]. destruct (check_call _ _ _ kw) as [[]|]; [|reflexivity]. cbn [bind].
    unfold inference_ad3. destruct (b_ad3 b) as [lib|]; [|reflexivity]. cbn [imported bind].
    destruct (HL lib eq_refl) as (H1 & _ & H3 & _). rewrite H1. unfold validate_params. rewrite !Nat.eqb_refl. cbn [andb bind snd].
    rewrite HX. destruct (ad3_graph lib U es t _) as [[[[um pm] en] st]|] eqn:EA; [|reflexivity]. cbn [singly bind].
    destruct (H3 _ _ _ _ _ _ _ _ EA) as (O & R & C). rewrite answer_one by reflexivity. rewrite <- R, <- C, answer_shape by exact O.
    destruct (single_answer _ _ None) as [[r q]|]; reflexivity.
  - cbn [String.eqb Ascii.eqb Bool.eqb]. destruct (check_call _ _ _ kw) as [[]|]; [|reflexivity]. cbn [bind].
    unfold inference_ad3plus. destruct (b_ad3 b) as [lib|]; [|reflexivity]. cbn [imported bind].
    destruct (HL lib eq_refl) as (_ & H2 & _ & H4). rewrite H2.
    rewrite HX. destruct (ad3_constrained lib U es _ _ _) as [[[[um pm] en] st]|] eqn:EA; [|reflexivity]. cbn [singly bind snd andb negb ensure].
    rewrite answer_one by reflexivity. destruct (single_answer _ _ None) as [[r q]|]; reflexivity.
Qed.
(** a list with one graph lets ad3 raise, the graph itself does not *)
Lemma exception_one b lib re kw U es t um pm e st : b_ad3 b = Some lib -> one_graph_lib lib ->
  truthy (kw_default kw "inference_exception"%string VNone) = true ->
  truthy (kw_default kw "relaxed"%string (VBool false)) = false ->
  check_call ("return_energy" :: positional)%string ["relaxed"; "verbose"; "branch_and_bound"; "inference_exception"]%string false kw = Ok tt ->
  ad3_graph lib U es t (kw_default kw "branch_and_bound"%string (VBool false)) = Ok (um, pm, e, st) -> not_integral st = true ->
  inference_dispatch b (Multi [U] [Pw3 (length es) (mcols U) (mcols U) t] [es]) (Name "ad3") re kw = Err InferenceException /\
  inference_dispatch b (Single U (Pw3 (length es) (mcols U) (mcols U) t) es) (Name "ad3") re kw =
    (let! y := argmax_rows um in Ok (RLabels y, if re then Some (- e)%Qc else None)).
Proof.
  intros EB (H1 & _ & H3 & _) HX HR HC EA HS. unfold inference_dispatch, dispatch_name. cbn [String.eqb Ascii.eqb Bool.eqb].
  rewrite HC. cbn [bind]. unfold inference_ad3. rewrite EB. cbn [imported bind]. rewrite H1, HX, HR.
  unfold validate_params. rewrite !Nat.eqb_refl. cbn [andb bind snd]. rewrite EA. cbn [singly bind].
  unfold multi_answer, single_answer. rewrite HS. cbn [andb negb ensure bind with_energy]. split; [reflexivity|].
  destruct (argmax_rows um); reflexivity.
Qed.

Section One.
Variables (k nf ne : nat) (cw : list Qc) (meth : string) (exc : bool) (b : backends).
Notation g := (EFCRF k nf ne [] []).
Notation gt := (TyCRF [k] [nf] [[ne]] [cw] meth exc).
Hypothesis HM : (meth = "ad3" \/ meth = "ad3+")%string.
Hypothesis HL : forall lib, b_ad3 b = Some lib -> one_graph_lib lib.
Variable x : ef_x.
Hypothesis HC : ef_check_x g x = Ok tt.
Hypothesis HE : edges_exist x.
Hypothesis Hk : 0 < k.
Hypothesis Hne : 0 < ne.

Lemma mat_mul_shape A B M : mat_mul A B = Ok M -> mrows M = mrows A /\ mcols M = mcols B.
Proof. unfold mat_mul. destruct (_ =? _); [|discriminate]. intro H. injection H as <-. split; reflexivity. Qed.
Lemma unary_shape w U : ef_unary g x w = Ok U -> mrows U = mrows (ex_features x) /\ mcols U = k.
Proof.
  unfold ef_unary. destruct (check_size_w _ w) as [[]|]; [|discriminate]. cbn [bind]. rewrite HC. cbn [bind]. unfold ef_unary_core.
  cbn [ef_states ef_features]. destruct (reshape _ k nf) as [B|] eqn:ER; [|discriminate]. cbn [bind]. intro H.
  destruct (mat_mul_shape _ _ _ H) as [R C]. split; [exact R|]. rewrite C. unfold reshape in ER. destruct (_ =? _) in ER; [|discriminate].
  injection ER as <-. reflexivity.
Qed.
Lemma pairwise_shape w P : ef_pairwise g x w = Ok P -> exists t, P = Pw3 (length (ex_edges x)) k k t.
Proof.
  unfold ef_pairwise. destruct (check_size_w _ w) as [[]|]; [|discriminate]. cbn [bind]. rewrite HC. cbn [bind]. unfold ef_pairwise_core.
  cbn [ef_states ef_features ef_edge_features]. destruct (ne =? 0); [discriminate|].
  destruct (reshape _ ne _) as [B|]; [|discriminate]. cbn [bind]. destruct (mat_mul _ B) as [d|] eqn:ED; [|discriminate]. cbn [bind].
  destruct (_ =? _); [|discriminate]. cbn [ensure bind]. intro H. injection H as <-. destruct (mat_mul_shape _ _ _ ED) as [R _]. rewrite R.
  assert (Q : length (ex_edges x) = mrows (ex_edge_features x)).
  { unfold ef_check_x in HC. cbn [ef_features ef_edge_features] in HC. destruct (_ =? nf); [|discriminate]. cbn [ensure bind] in HC.
    destruct (length (ex_edges x) =? _) eqn:Q; [|discriminate]. apply Nat.eqb_eq. exact Q. }
  rewrite <- Q. eexists. reflexivity.
Qed.
Lemma laug_shape (U : mat) y U' : loss_augment_unaries U y cw = Ok U' -> mrows U' = mrows U /\ mcols U' = mcols U.
Proof. unfold loss_augment_unaries. destruct (mapM _ _) as [r|]; [|discriminate]. cbn [bind]. intro H. injection H as <-. split; reflexivity. Qed.

Lemma ty_dispatch_one U P relaxed : mcols U = k -> (exists t, P = Pw3 (length (ex_edges x)) k k t) ->
  ty_dispatch b gt [U] [P] (convert_single x) [("relaxed"%string, VBool relaxed)] =
  (let! r := inference_dispatch b (Single U P (ex_edges x)) (Name meth) false [("relaxed"%string, VBool relaxed)] in Ok (as_list (fst r))).
Proof.
  intros <- [t ->]. unfold ty_dispatch. rewrite edges_one. cbn [bind ty_method].
  rewrite (dispatch_one b meth false [("relaxed"%string, VBool relaxed)] U (ex_edges x) t HM HL eq_refl).
  destruct (inference_dispatch _ _ _ _ _) as [[r e]|]; reflexivity.
Qed.
Lemma inference_one w relaxed :
  ty_inference b gt (convert_single x) w relaxed [] =
  (let! _ := check_size_w (ef_size g) w in
   let! U := ef_unary g x w in
   let! P := ef_pairwise g x w in
   let! r := inference_dispatch b (Single U P (ex_edges x)) (Name meth) false [("relaxed"%string, VBool relaxed)] in
   Ok (as_list (fst r))).
Proof.
  unfold ty_inference. rewrite size_same. destruct (check_size_w (ef_size g) w) as [[]|]; [|reflexivity]. cbn [bind].
  rewrite (unary_one k nf ne cw meth exc x w HC). destruct (ef_unary g x w) as [U|] eqn:EU; [|reflexivity]. cbn [bind].
  rewrite (pairwise_one k nf ne cw meth exc x w HC Hk Hne). destruct (ef_pairwise g x w) as [P|] eqn:EP; [|reflexivity]. cbn [bind].
  apply ty_dispatch_one; [apply (proj2 (unary_shape w U EU))|apply (pairwise_shape w P EP)].
Qed.
Lemma laug_inference_one y w relaxed : labels_ok g x y ->
  ty_loss_augmented_inference b gt (convert_single x) (map Z.of_nat y) w relaxed =
  (let! _ := check_size_w (ef_size g) w in
   let! U := ef_unary g x w in
   let! P := ef_pairwise g x w in
   let! U' := loss_augment_unaries U y cw in
   let! r := inference_dispatch b (Single U' P (ex_edges x)) (Name meth) false [("relaxed"%string, VBool relaxed)] in
   Ok (as_list (fst r))).
Proof.
  intros [L _]. unfold ty_loss_augmented_inference. rewrite size_same. destruct (check_size_w (ef_size g) w) as [[]|]; [|reflexivity]. cbn [bind].
  rewrite (unary_one k nf ne cw meth exc x w HC). destruct (ef_unary g x w) as [U|] eqn:EU; [|reflexivity]. cbn [bind].
  rewrite (pairwise_one k nf ne cw meth exc x w HC Hk Hne). destruct (ef_pairwise g x w) as [P|] eqn:EP; [|reflexivity]. cbn [bind].
  destruct (unary_shape w U EU) as [R C]. rewrite laug_one by congruence.
  destruct (loss_augment_unaries U y cw) as [U'|] eqn:EL; [|reflexivity]. cbn [bind].
  destruct (laug_shape U y U' EL) as [R' C']. apply ty_dispatch_one; [congruence|apply (pairwise_shape w P EP)].
Qed.

Lemma labels_as_list r : labels_of (as_list r) = labels_of r.
Proof. destruct r; reflexivity. Qed.
Lemma sm_inference_one w : sm_inference (ty_smodel b gt) (convert_single x) w = sm_inference (ef_smodel (dispatch_solver b meth) g cw) x w.
Proof.
  cbn [sm_inference ty_smodel ef_smodel]. rewrite inference_one. unfold ef_inference, dispatch_solver.
  destruct (check_size_w (ef_size g) w) as [[]|]; [|reflexivity]. cbn [bind].
  destruct (ef_unary g x w) as [U|]; [|reflexivity]. cbn [bind]. destruct (ef_pairwise g x w) as [P|]; [|reflexivity]. cbn [bind].
  destruct (inference_dispatch _ _ _ _ _) as [[r e]|]; [|reflexivity]. cbn [bind fst]. apply labels_as_list.
Qed.
Lemma sm_laug_one y w : labels_ok g x y ->
  sm_laug (ty_smodel b gt) (convert_single x) y w = sm_laug (ef_smodel (dispatch_solver b meth) g cw) x y w.
Proof.
  intro H. cbn [sm_laug ty_smodel ef_smodel]. rewrite (laug_inference_one y w false H). unfold ef_loss_augmented_inference, dispatch_solver.
  destruct (check_size_w (ef_size g) w) as [[]|]; [|reflexivity]. cbn [bind].
  destruct (ef_unary g x w) as [U|]; [|reflexivity]. cbn [bind]. destruct (ef_pairwise g x w) as [P|]; [|reflexivity]. cbn [bind].
  destruct (loss_augment_unaries U y cw) as [U'|]; [|reflexivity]. cbn [bind].
  destruct (inference_dispatch _ _ _ _ _) as [[r e]|]; [|reflexivity]. cbn [bind fst]. apply labels_as_list.
Qed.

Lemma argmax_labels um y n K : argmax_rows um = Ok y -> mrows um = n -> mcols um = K -> length y = n /\ Forall (fun s => s < K) y.
Proof.
  intros H R C. destruct (argmax_rows_first um y H) as [L F]. split; [congruence|]. apply Forall_forall. intros s Hs.
  apply (In_nth _ _ 0) in Hs as [i [Hi <-]]. rewrite <- C. apply (F i). congruence.
Qed.
Lemma solver_labels U P es y : dispatch_solver b meth U P es = Ok y -> length y = mrows U /\ Forall (fun s => s < mcols U) y.
Proof.
  unfold dispatch_solver, inference_dispatch, dispatch_name. intro H. destruct HM as [-> | ->]; cbn [String.eqb Ascii.eqb Bool.eqb] in H.
  - cbn in H. unfold inference_ad3 in H. destruct (b_ad3 b) as [lib|] eqn:EB; [|discriminate]. cbn [imported bind] in H.
    destruct (validate_params U P (length es)) as [[n t]|]; [|discriminate]. cbn [bind snd] in H.
    destruct (ad3_graph lib U es t _) as [[[[um pm] en] st]|] eqn:EA; [|discriminate]. cbn [bind] in H.
    destruct (HL lib eq_refl) as (_ & _ & H3 & _). destruct (H3 _ _ _ _ _ _ _ _ EA) as (O & R & C).
    unfold single_answer in H. rewrite andb_false_r in H. destruct (argmax_rows um) as [z|] eqn:EZ; [|discriminate].
    cbn in H. injection H as <-. apply (argmax_labels um z _ _ EZ R C).
  - cbn in H. unfold inference_ad3plus in H. destruct (b_ad3 b) as [lib|] eqn:EB; [|discriminate]. cbn [imported bind] in H.
    destruct (ad3_constrained lib U es P _ _) as [[[[um pm] en] st]|] eqn:EA; [|discriminate]. cbn [bind andb negb ensure] in H.
    destruct (HL lib eq_refl) as (_ & _ & _ & H4). destruct (H4 _ _ _ _ _ _ _ _ _ EA) as (O & R & C).
    unfold single_answer in H. rewrite andb_false_r in H. destruct (argmax_rows um) as [z|] eqn:EZ; [|discriminate].
    cbn in H. injection H as <-. apply (argmax_labels um z _ _ EZ R C).
Qed.
Lemma sm_inference_labels w y : sm_inference (ef_smodel (dispatch_solver b meth) g cw) x w = Ok y -> labels_ok g x y.
Proof.
  cbn [sm_inference ef_smodel]. unfold ef_inference. destruct (check_size_w (ef_size g) w) as [[]|]; [|discriminate]. cbn [bind].
  destruct (ef_unary g x w) as [U|] eqn:EU; [|discriminate]. cbn [bind]. destruct (ef_pairwise g x w) as [P|]; [|discriminate]. cbn [bind].
  intro H. destruct (solver_labels _ _ _ _ H) as [L F]. destruct (unary_shape w U EU) as [R C]. rewrite R in L. rewrite C in F. split; assumption.
Qed.
Lemma sm_laug_labels y w y' : sm_laug (ef_smodel (dispatch_solver b meth) g cw) x y w = Ok y' -> labels_ok g x y'.
Proof.
  cbn [sm_laug ef_smodel]. unfold ef_loss_augmented_inference. destruct (check_size_w (ef_size g) w) as [[]|]; [|discriminate]. cbn [bind].
  destruct (ef_unary g x w) as [U|] eqn:EU; [|discriminate]. cbn [bind]. destruct (ef_pairwise g x w) as [P|]; [|discriminate]. cbn [bind].
  destruct (loss_augment_unaries U y cw) as [U'|] eqn:EL; [|discriminate]. cbn [bind]. destruct (laug_shape U y U' EL) as [R' C'].
  intro H. destruct (solver_labels _ _ _ _ H) as [L F]. destruct (unary_shape w U EU) as [R C]. rewrite R', R in L. rewrite C', C in F. split; assumption.
Qed.
Lemma alike_one y : labels_ok g x y ->
  alike (ef_smodel (dispatch_solver b meth) g cw) (ty_smodel b gt) (x, y) (convert_single x, y).
Proof.
  intro H. split; [reflexivity|]. exists (labels_ok g x). cbn [fst snd]. split; [exact H|].
  split; [intros z zt Hz _; cbn [sm_joint ef_smodel ty_smodel]; symmetry; apply joint_one; assumption|].
  split; [intro w; symmetry; apply sm_inference_one|].
  split; [apply sm_inference_labels|].
  split; [intros z w Hz; symmetry; apply sm_laug_one; exact Hz|].
  split; [intros z w z' _; apply sm_laug_labels|].
  split; [reflexivity|]. intros z z' _ _. cbn [sm_loss sm_closs ef_smodel ty_smodel]. unfold ty_class_weight. cbn [ty_weights concat].
  rewrite app_nil_r. split; reflexivity.
Qed.
End One.

Lemma sizes_one b k nf ne cw meth exc :
  alike_sizes (ef_smodel (dispatch_solver b meth) (EFCRF k nf ne [] []) cw) (ty_smodel b (TyCRF [k] [nf] [[ne]] [cw] meth exc)).
Proof. split; [symmetry; apply size_same|reflexivity]. Qed.

(** ** rejected labels and edges *)
Lemma bad_label k nf ne cw meth exc x y : ef_check_x (EFCRF k nf ne [] []) x = Ok tt -> edges_exist x ->
  length y = mrows (ex_features x) -> ~ Forall (fun s => s < k) y ->
  ty_joint_feature (TyCRF [k] [nf] [[ne]] [cw] meth exc) (convert_single x) (TDiscrete (map Z.of_nat y)) = Err InconsistentLabel /\
  ef_joint_feature (EFCRF k nf ne [] []) x (EDiscrete y) = Err IndexError.
Proof.
  intros C E L B. unfold ty_joint_feature, ef_joint_feature. rewrite (check_exist k nf ne cw meth exc x E), C. cbn [bind]. split.
  - unfold ty_marginals, ty_check_xy, ty_node_features, convert_single, type_starts, ty_types.
    cbn [ty_states ty_features tx_nodes combine map fst snd length seq firstn list_sum skipn Nat.add fold_right].
    rewrite map_length, L, Nat.add_0_r, Nat.eqb_refl. cbn [ensure bind check_types].
    destruct (mrows (ex_features x) =? 0) eqn:Z0.
    { exfalso. apply B. apply Nat.eqb_eq in Z0. rewrite Z0 in L. apply length_zero_iff_nil in L. subst y. constructor. }
    rewrite firstn_all2 by (rewrite map_length; lia).
    assert (A : forallb (fun z => (0 <=? z)%Z) (map Z.of_nat y) = true).
    { apply forallb_forall. intros z Hz. apply in_map_iff in Hz as [s [<- _]]. apply Z.leb_le. lia. }
    rewrite A. cbn [ensure bind]. change (Z.of_nat 0) with 0%Z. rewrite A. cbn [ensure bind].
    destruct (forallb (fun z => (z <? Z.of_nat (k + 0))%Z) (map Z.of_nat y)) eqn:Q; [|reflexivity].
    exfalso. apply B. apply Forall_forall. intros s Hs. rewrite forallb_forall in Q. specialize (Q _ (in_map Z.of_nat _ _ Hs)). apply Z.ltb_lt in Q. lia.
  - unfold ef_joint_feature_core, ef_marginals. rewrite (proj2 (Nat.eqb_eq _ _) L). cbn [ensure bind ef_states]. unfold one_hot.
    destruct (forallb (fun s => s <? k) y) eqn:Q; [|reflexivity]. exfalso. apply B. apply forallb_lt_Forall. exact Q.
Qed.
Lemma missing_node k nf ne cw meth exc x yt : ~ edges_exist x ->
  ty_joint_feature (TyCRF [k] [nf] [[ne]] [cw] meth exc) (convert_single x) yt = Err ValueError.
Proof.
  intro N. unfold ty_joint_feature. destruct (check_fails k nf ne cw meth exc x) as [H|H]; [|rewrite H; reflexivity].
  exfalso. apply N. apply (check_iff k nf ne cw meth exc x). exact H.
Qed.
Lemma missing_relaxed k nf ne x um pm : ef_check_x (EFCRF k nf ne [] []) x = Ok tt -> mat_ok um -> mrows um = mrows (ex_features x) -> mcols um = k ->
  mrows pm = length (ex_edges x) -> exists f, ef_joint_feature (EFCRF k nf ne [] []) x (ERelaxed (ravel um) pm) = Ok f.
Proof.
  intros C O R K P. unfold ef_joint_feature. rewrite C. cbn [bind]. unfold ef_joint_feature_core, ef_marginals. cbn [ef_states ef_sym ef_anti].
  rewrite <- R, <- K, (reshape_same um O). cbn [bind sym_rows].
  assert (Q : length (ex_edges x) = mrows (ex_edge_features x)).
  { unfold ef_check_x in C. cbn [ef_features ef_edge_features] in C. destruct (_ =? nf); [|discriminate]. cbn [ensure bind] in C.
    destruct (length (ex_edges x) =? _) eqn:Q; [|discriminate]. apply Nat.eqb_eq. exact Q. }
  unfold mat_mul. cbn [mat_T mtab mcols mrows]. rewrite P, Q, Nat.eqb_refl. cbn [bind sym_rows]. rewrite R, Nat.eqb_refl. cbn [bind]. eauto.
Qed.
Lemma setup_one k nf ne meth cw : (meth = "ad3" \/ meth = "ad3+")%string ->
  (length cw = k -> ty_setup 1 [k] [nf] [[ne]] meth (Some [cw]) = Ok (TyCRF [k] [nf] [[ne]] [cw] meth false)) /\
  ty_setup 1 [k] [nf] [[ne]] meth None = Ok (TyCRF [k] [nf] [[ne]] [repeat 1%Qc k] meth false).
Proof.
  intro H. unfold ty_setup. cbn [length forallb seq nth fst snd combine]. rewrite !Nat.eqb_refl. cbn [Nat.ltb Nat.leb Nat.eqb andb ensure bind].
  replace (String.eqb meth "ad3" || String.eqb meth "ad3+")%bool with true by (destruct H as [-> | ->]; reflexivity).
  cbn [ensure bind]. split; [|reflexivity]. intros ->. rewrite Nat.eqb_refl. reflexivity.
Qed.
